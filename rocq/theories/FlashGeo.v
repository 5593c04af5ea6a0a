(** * Geometry of the tensors of the fused attention: tiles of equal sizes *)
From Verif Require Import Base Spec Geometry Traits TraitsProofs Runtime Ops TensorSem ElemGeneric OneOut AccRuns Axis Loops SliceGeo
  SliceProofs PairGeo SoftmaxProofs.

(** Layout of the tensors of the fused attention: head size h; sequence, batch and heads in gs, gb, gn tiles of st, bt, nt. *)
Definition even (h st bt nt gs gb gn : Z) : Prop :=
  (0 < h /\ 0 < st /\ 0 < bt /\ 0 < nt /\ 0 < gs /\ 0 < gb /\ 0 < gn)%Z.
Definition seq_tensor h st bt nt gs gb gn (X : tensor) : Prop :=
  wf_tensor X /\ t_shape X = [h; gs * st; gb * bt; gn * nt]%Z /\ t_base X = [h; st; bt; nt].
Definition mask_tensor st gs (X : tensor) : Prop :=
  wf_tensor X /\ t_shape X = [gs * st; gs * st]%Z /\ t_base X = [st; st].
Definition score_tensor st bt nt gs gb gn (X : tensor) : Prop :=
  wf_tensor X /\ t_shape X = [gs * st; gs * st; gb * bt; gn * nt]%Z /\ t_base X = [st; st; bt; nt].
Definition row_tensor st bt nt gs gb gn (X : tensor) : Prop :=
  wf_tensor X /\ t_shape X = [gs * st; gb * bt; gn * nt]%Z /\ t_base X = [st; bt; nt].

Lemma egrid a b : 0 < b -> (a * b + b - 1) / b = a.
Proof. intros Hb. replace (a * b + b - 1) with ((b - 1) + a * b) by ring. rewrite Z.div_add by lia. rewrite Z.div_small by lia. lia. Qed.
Lemma etl a b t : 0 < b -> 0 <= t < a -> Z.min b (a * b - t * b) = b.
Proof. intros Hb Ht. apply Z.min_l. nia. Qed.
Lemma ediv a b i : 0 < b -> 0 <= i < a * b -> 0 <= i / b < a /\ 0 <= i mod b < b /\ i = i / b * b + i mod b.
Proof.
  intros Hb Hi. split; [|split].
  - split; [apply Z.div_pos; lia|apply Z.div_lt_upper_bound; nia].
  - apply Z.mod_pos_bound; lia.
  - pose proof (Z.div_mod i b). lia.
Qed.
Lemma edivj b j l : 0 < b -> 0 <= l < b -> (j * b + l) / b = j /\ (j * b + l) mod b = l.
Proof.
  intros Hb Hl. replace (j * b + l) with (l + j * b) by ring. rewrite Z.div_add, Z.mod_add by lia.
  rewrite Z.div_small, Z.mod_small by lia. lia.
Qed.
Lemma mix_bound a b i j : 0 <= i < a -> 0 <= j < b -> 0 <= i + a * j < a * b.
Proof. intros. nia. Qed.
Lemma mix_div a i j : 0 <= i < a -> (i + a * j) / a = j /\ (i + a * j) mod a = i.
Proof.
  intros H. replace (i + a * j) with (i + j * a) by ring. rewrite Z.div_add, Z.mod_add by lia.
  rewrite Z.div_small, Z.mod_small by lia. lia.
Qed.

Section G.
Variables (h st bt nt gs gb gn : Z).
Hypotheses (Hh : 0 < h) (Hst : 0 < st) (Hbt : 0 < bt) (Hnt : 0 < nt) (Hgs : 0 < gs) (Hgb : 0 < gb) (Hgn : 0 < gn).

(** first dimension in one piece *)
Definition shX (X : tensor) : Prop := t_shape X = [h; gs * st; gb * bt; gn * nt] /\ t_base X = [h; st; bt; nt].
Definition shP (X : tensor) : Prop := t_shape X = [2; gs * st; gb * bt; gn * nt] /\ t_base X = [2; st; bt; nt].
Definition shS (X : tensor) : Prop := t_shape X = [gs * st; gb * bt; gn * nt] /\ t_base X = [st; bt; nt].
Definition shT (X : tensor) : Prop := t_shape X = [gs * st; gs * st; gb * bt; gn * nt] /\ t_base X = [st; st; bt; nt].
Definition shM (X : tensor) : Prop := t_shape X = [gs * st; gs * st] /\ t_base X = [st; st].

Definition gc (x y : Z) : Z := x / bt + gb * (y / nt).
Definition cc (x y : Z) : Z := x mod bt + bt * (y mod nt).

Lemma gc_bound x y : 0 <= x < gb * bt -> 0 <= y < gn * nt -> 0 <= gc x y < gb * gn.
Proof.
  intros Hx Hy. apply ediv in Hx; [|assumption]. apply ediv in Hy; [|assumption]. apply mix_bound; tauto.
Qed.
Lemma cc_bound x y : 0 <= x < gb * bt -> 0 <= y < gn * nt -> 0 <= cc x y < bt * nt.
Proof. intros Hx Hy. apply mix_bound; apply Z.mod_pos_bound; lia. Qed.

Lemma grid1 : (h + h - 1) / h = 1.
Proof. replace (h + h - 1) with (h - 1 + 1 * h) by ring. rewrite Z.div_add by lia. rewrite Z.div_small by lia. lia. Qed.

Lemma gX X : shX X -> gridZ (t_shape X) (t_base X) = [1; gs; gb; gn].
Proof. intros [-> ->]. unfold gridZ. cbn [map2]. rewrite grid1, !egrid by assumption. reflexivity. Qed.
Lemma gP X : shP X -> gridZ (t_shape X) (t_base X) = [1; gs; gb; gn].
Proof. intros [-> ->]. unfold gridZ. cbn [map2]. rewrite !egrid by assumption. reflexivity. Qed.
Lemma gS X : shS X -> gridZ (t_shape X) (t_base X) = [gs; gb; gn].
Proof. intros [-> ->]. unfold gridZ. cbn [map2]. rewrite !egrid by assumption. reflexivity. Qed.
Lemma gT X : shT X -> gridZ (t_shape X) (t_base X) = [gs; gs; gb; gn].
Proof. intros [-> ->]. unfold gridZ. cbn [map2]. rewrite !egrid by assumption. reflexivity. Qed.
Lemma gM X : shM X -> gridZ (t_shape X) (t_base X) = [gs; gs].
Proof. intros [-> ->]. unfold gridZ. cbn [map2]. rewrite !egrid by assumption. reflexivity. Qed.

Lemma nX X : shX X -> ntiles X = gs * (gb * gn).
Proof. intros H. unfold ntiles. rewrite (gX X H). cbn [prodZ]. ring. Qed.
Lemma nP X : shP X -> ntiles X = gs * (gb * gn).
Proof. intros H. unfold ntiles. rewrite (gP X H). cbn [prodZ]. ring. Qed.
Lemma nS X : shS X -> ntiles X = gs * (gb * gn).
Proof. intros H. unfold ntiles. rewrite (gS X H). cbn [prodZ]. ring. Qed.
Lemma nT X : shT X -> ntiles X = gs * (gs * (gb * gn)).
Proof. intros H. unfold ntiles. rewrite (gT X H). cbn [prodZ]. ring. Qed.
Lemma nM X : shM X -> ntiles X = gs * gs.
Proof. intros H. unfold ntiles. rewrite (gM X H). cbn [prodZ]. ring. Qed.

Ltac unoff_in H g := match type of H with 0 <= ?i < _ =>
  let U := fresh "U" in assert (U : inb g (unoff g i)) by
   (apply unoff_inb; [repeat constructor; lia|cbn [prodZ]; lia]);
  unfold unoff in U |- *; repeat (apply inb_cons in U; let b := fresh "b" in destruct U as [b U]); clear U end.

Lemma zX X i : shX X -> 0 <= i < gs * (gb * gn) -> tsz X i = h * (st * (bt * nt)).
Proof.
  intros H Hi. unfold tsz, tsh. rewrite (gX X H). destruct H as [-> ->].
  assert (Hi' : 0 <= i < prodZ [1; gs; gb; gn]) by (cbn [prodZ]; lia).
  unoff_in Hi' [1; gs; gb; gn]. cbn [tshape prodZ]. rewrite (Z.mod_1_r i), !etl by assumption.
  rewrite Z.min_l by lia. ring.
Qed.
Lemma zS X i : shS X -> 0 <= i < gs * (gb * gn) -> tsz X i = st * (bt * nt).
Proof.
  intros H Hi. unfold tsz, tsh. rewrite (gS X H). destruct H as [-> ->].
  assert (Hi' : 0 <= i < prodZ [gs; gb; gn]) by (cbn [prodZ]; lia).
  unoff_in Hi' [gs; gb; gn]. cbn [tshape prodZ]. rewrite !etl by assumption. ring.
Qed.
Lemma zP X i : shP X -> 0 <= i < gs * (gb * gn) -> tsz X i = 2 * (st * (bt * nt)).
Proof.
  intros H Hi. unfold tsz, tsh. rewrite (gP X H). destruct H as [-> ->].
  assert (Hi' : 0 <= i < prodZ [1; gs; gb; gn]) by (cbn [prodZ]; lia).
  unoff_in Hi' [1; gs; gb; gn]. cbn [tshape prodZ]. rewrite (Z.mod_1_r i), !etl by assumption.
  rewrite Z.min_l by lia. ring.
Qed.
Lemma zT X i : shT X -> 0 <= i < gs * (gs * (gb * gn)) -> tsz X i = st * (st * (bt * nt)).
Proof.
  intros H Hi. unfold tsz, tsh. rewrite (gT X H). destruct H as [-> ->].
  assert (Hi' : 0 <= i < prodZ [gs; gs; gb; gn]) by (cbn [prodZ]; lia).
  unoff_in Hi' [gs; gs; gb; gn]. cbn [tshape prodZ]. rewrite !etl by assumption. ring.
Qed.
Lemma zM X i : shM X -> 0 <= i < gs * gs -> tsz X i = st * st.
Proof.
  intros H Hi. unfold tsz, tsh. rewrite (gM X H). destruct H as [-> ->].
  assert (Hi' : 0 <= i < prodZ [gs; gs]) by (cbn [prodZ]; lia).
  unoff_in Hi' [gs; gs]. cbn [tshape prodZ]. rewrite !etl by assumption. ring.
Qed.

(** ** Positions of elements *)
Lemma tX X d q x y : shX X -> 0 <= d < h -> etile X [d; q; x; y] = q / st + gs * gc x y.
Proof.
  intros H Hd. unfold etile. rewrite (gX X H). destruct H as [_ ->]. unfold tile_of. cbn [map2 off].
  rewrite (Z.div_small d) by assumption. unfold gc. ring.
Qed.
Lemma oX X d q x y : shX X -> 0 <= d < h -> 0 <= q < gs * st -> 0 <= x < gb * bt -> 0 <= y < gn * nt ->
  eoff X [d; q; x; y] = d + h * (q mod st + st * cc x y).
Proof.
  intros [E1 E2] Hd Hq Hx Hy. unfold eoff. rewrite E1, E2. unfold tile_of, in_tile. cbn [map2 tshape off].
  apply ediv in Hq; [|assumption]. apply ediv in Hx; [|assumption]. apply ediv in Hy; [|assumption].
  rewrite !etl by tauto. rewrite (Z.div_small d), (Z.mod_small d) by assumption. rewrite Z.min_l by lia. unfold cc. ring.
Qed.
Lemma tS X q x y : shS X -> etile X [q; x; y] = q / st + gs * gc x y.
Proof. intros H. unfold etile. rewrite (gS X H). destruct H as [_ ->]. unfold tile_of. cbn [map2 off]. unfold gc. ring. Qed.
Lemma oS X q x y : shS X -> 0 <= q < gs * st -> 0 <= x < gb * bt -> 0 <= y < gn * nt ->
  eoff X [q; x; y] = q mod st + st * cc x y.
Proof.
  intros [E1 E2] Hq Hx Hy. unfold eoff. rewrite E1, E2. unfold tile_of, in_tile. cbn [map2 tshape off].
  apply ediv in Hq; [|assumption]. apply ediv in Hx; [|assumption]. apply ediv in Hy; [|assumption].
  rewrite !etl by tauto. unfold cc. ring.
Qed.
Lemma tM X k q : shM X -> etile X [k; q] = k / st + gs * (q / st).
Proof. intros H. unfold etile. rewrite (gM X H). destruct H as [_ ->]. unfold tile_of. cbn [map2 off]. ring. Qed.
Lemma oM X k q : shM X -> 0 <= k < gs * st -> 0 <= q < gs * st -> eoff X [k; q] = k mod st + st * (q mod st).
Proof.
  intros [E1 E2] Hk Hq. unfold eoff. rewrite E1, E2. unfold tile_of, in_tile. cbn [map2 tshape off].
  apply ediv in Hk; [|assumption]. apply ediv in Hq; [|assumption]. rewrite !etl by tauto. ring.
Qed.

Lemma shP_pair X : shP X -> pairt X.
Proof. intros [E1 E2]. exists [gs * st; gb * bt; gn * nt], [st; bt; nt]. auto. Qed.
Lemma shP_sq X : shP X -> shS (sq X).
Proof. intros [E1 E2]. unfold shS, sq, t_shape, t_base. cbn. fold (t_shape X) (t_base X). rewrite E1, E2. split; reflexivity. Qed.

(** ** Grid indices of the code *)
Lemma unoff_grid i : 0 <= i < gs * (gb * gn) ->
  exists x y, unoff [1; gs; gb; gn] i = [0; i mod gs; x; y] /\ 0 <= i mod gs < gs /\ 0 <= x < gb /\ 0 <= y < gn /\
    i = i mod gs + gs * (x + gb * y) /\ x + gb * y = i / gs.
Proof.
  intros Hi. assert (Hp : pos [1; gs; gb; gn]) by (repeat constructor; lia).
  assert (Hi' : 0 <= i < prodZ [1; gs; gb; gn]) by (cbn [prodZ]; lia).
  pose proof (unoff_inb _ _ Hp Hi') as U. pose proof (off_unoff _ _ Hp Hi') as E.
  unfold unoff in *. rewrite (Z.mod_1_r i), (Z.div_1_r i) in *. cbn [off] in E.
  apply inb_cons in U as [_ U]. apply inb_cons in U as [U1 U]. apply inb_cons in U as [U2 U]. apply inb_cons in U as [U3 U].
  eexists _, _. split; [reflexivity|]. split; [assumption|]. split; [exact U2|]. split; [exact U3|].
  assert (E' : i = i mod gs + gs * ((i / gs) mod gb + gb * ((i / gs / gb) mod gn))) by lia.
  split; [exact E'|]. pose proof (Z.div_mod i gs). nia.
Qed.
Lemma li_X X i : wft X -> shX X -> 0 <= i < gs * (gb * gn) -> linear_to_index (t_grid X) i = Ok (unoff [1; gs; gb; gn] i).
Proof.
  intros W H Hi. rewrite t_grid_eq by assumption. rewrite linear_to_index_ok; [rewrite (gX X H); reflexivity|apply wf_pg; assumption|].
  fold (ntiles X). rewrite (nX X H). assumption.
Qed.
Lemma li_P X i : wft X -> shP X -> 0 <= i < gs * (gb * gn) -> linear_to_index (t_grid X) i = Ok (unoff [1; gs; gb; gn] i).
Proof.
  intros W H Hi. rewrite t_grid_eq by assumption. rewrite linear_to_index_ok; [rewrite (gP X H); reflexivity|apply wf_pg; assumption|].
  fold (ntiles X). rewrite (nP X H). assumption.
Qed.
Lemma hX X j x y : wft X -> shX X -> 0 <= j < gs -> 0 <= x < gb -> 0 <= y < gn ->
  get_tile_handle_idx X [0; j; x; y] = Ok (th X (j + gs * (x + gb * y))).
Proof.
  intros W H Hj Hx Hy. rewrite get_tile_handle_idx_ok; [|assumption|rewrite (gX X H); repeat constructor; lia].
  rewrite (gX X H). cbn [off]. do 2 f_equal. ring.
Qed.
Lemma hP X j x y : wft X -> shP X -> 0 <= j < gs -> 0 <= x < gb -> 0 <= y < gn ->
  get_tile_handle_idx X [0; j; x; y] = Ok (th X (j + gs * (x + gb * y))).
Proof.
  intros W H Hj Hx Hy. rewrite get_tile_handle_idx_ok; [|assumption|rewrite (gP X H); repeat constructor; lia].
  rewrite (gP X H). cbn [off]. do 2 f_equal. ring.
Qed.
Lemma hS X j x y : wft X -> shS X -> 0 <= j < gs -> 0 <= x < gb -> 0 <= y < gn ->
  get_tile_handle_idx X [j; x; y] = Ok (th X (j + gs * (x + gb * y))).
Proof.
  intros W H Hj Hx Hy. rewrite get_tile_handle_idx_ok; [|assumption|rewrite (gS X H); repeat constructor; lia].
  rewrite (gS X H). cbn [off]. do 2 f_equal. ring.
Qed.
Lemma hT X k j x y : wft X -> shT X -> 0 <= k < gs -> 0 <= j < gs -> 0 <= x < gb -> 0 <= y < gn ->
  get_tile_handle_idx X [k; j; x; y] = Ok (th X (k + gs * (j + gs * (x + gb * y)))).
Proof.
  intros W H Hk Hj Hx Hy. rewrite get_tile_handle_idx_ok; [|assumption|rewrite (gT X H); repeat constructor; lia].
  rewrite (gT X H). cbn [off]. do 2 f_equal. ring.
Qed.
Lemma hM X k j : wft X -> shM X -> 0 <= k < gs -> 0 <= j < gs ->
  get_tile_handle_idx X [k; j] = Ok (th X (k + gs * j)).
Proof.
  intros W H Hk Hj. rewrite get_tile_handle_idx_ok; [|assumption|rewrite (gM X H); repeat constructor; lia].
  rewrite (gM X H). cbn [off]. do 2 f_equal. ring.
Qed.
End G.
