(** * Contents of a tensor in the store, and generic facts about its tiles *)
From Verif Require Import Base Spec Geometry Traits TraitsProofs Runtime Ops.

Section Sem.
Context {T : Type}.

Definition fl (b : buf T) : list T := match b with BF l => l | _ => [] end.
Definition il (b : buf T) : list Z := match b with BI l => l | _ => [] end.
Definition bl (b : buf T) : list bool := match b with BB l => l | _ => [] end.

(** Handle and number of elements of the i-th tile. *)
Definition th (t : tensor) (i : Z) : handle := zn (tile_handles t) i.
Definition tsh (t : tensor) (i : Z) : list Z :=
  tshape (t_shape t) (t_base t) (unoff (gridZ (t_shape t) (t_base t)) i).
Definition tsz (t : tensor) (i : Z) : Z := prodZ (tsh t i).
Definition ntiles (t : tensor) : Z := prodZ (gridZ (t_shape t) (t_base t)).

(** Position of an element: which tile, which offset in it. *)
Definition etile (t : tensor) (idx : list Z) : Z :=
  off (gridZ (t_shape t) (t_base t)) (tile_of (t_base t) idx).
Definition eoff (t : tensor) (idx : list Z) : Z :=
  off (tshape (t_shape t) (t_base t) (tile_of (t_base t) idx)) (in_tile (t_base t) idx).

(** Value of element [idx] of tensor [t] in store [s]. *)
Definition elem `{Dflt T} (s : store T) (t : tensor) (idx : list Z) : T :=
  zn (fl (s (th t (etile t idx)))) (eoff t idx).
Definition ielem (s : store T) (t : tensor) (idx : list Z) : Z :=
  zn (il (s (th t (etile t idx)))) (eoff t idx).
Definition belem (s : store T) (t : tensor) (idx : list Z) : bool :=
  zn (bl (s (th t (etile t idx)))) (eoff t idx).

(** The tiles of [t] are registered with element kind [k]. *)
Definition stored (k : kind) (s : store T) (t : tensor) : Prop :=
  forall i, 0 <= i < ntiles t -> ty (s (th t i)) = (k, tsz t i).

Definition disj (t1 t2 : tensor) : Prop :=
  forall h, In h (tile_handles t1) -> In h (tile_handles t2) -> False.

(** All contents unchanged outside the tiles of the listed tensors. *)
Definition frame (ts : list tensor) (s s' : store T) : Prop :=
  forall h, (forall t, In t ts -> ~ In h (tile_handles t)) -> s' h = s h.

(** *** Facts *)
Record wft (t : tensor) : Prop := {
  wf_len : zlen (t_base t) = zlen (t_shape t);
  wf_ps : pos (t_shape t);
  wf_pb : pos (t_base t);
  wf_tr : tr t = tn_of (t_shape t) (t_base t);
  wf_tt : tile_traits t = ztab (ntiles t) (fun i => tt_of (tsh t i));
  wf_hl : zlen (tile_handles t) = ntiles t;
  wf_nd : NoDup (tile_handles t)
}.

Lemma wf_wft t : wf_tensor t -> wft t.
Proof.
  intros (shape & base & H1 & H2 & H3 & H4 & H5 & H6 & H7).
  assert (Es : t_shape t = shape) by (unfold t_shape, tn_shape; rewrite H4; reflexivity).
  assert (Eb : t_base t = base) by (unfold t_base; rewrite H4; reflexivity).
  constructor; unfold ntiles, tsh; rewrite ?Es, ?Eb; assumption.
Qed.

Lemma wf_len' t : wft t -> List.length (t_shape t) = List.length (t_base t).
Proof. intros H. pose proof (wf_len _ H). unfold zlen in *. lia. Qed.

Lemma wf_pg t : wft t -> pos (gridZ (t_shape t) (t_base t)).
Proof. intros H. apply gridZ_pos; [apply wf_len'|apply wf_ps|apply wf_pb]; assumption. Qed.

Lemma ntiles_pos t : wft t -> 0 < ntiles t.
Proof. intros H. apply prodZ_pos, wf_pg, H. Qed.

Lemma t_ntiles_eq t : wft t -> t_ntiles t = ntiles t.
Proof. intros H. unfold t_ntiles, t_grid. rewrite (wf_tr _ H). reflexivity. Qed.

Lemma t_grid_eq t : wft t -> t_grid t = tt_of (gridZ (t_shape t) (t_base t)).
Proof. intros H. unfold t_grid. rewrite (wf_tr _ H). reflexivity. Qed.

Lemma t_ndim_eq t : wft t -> t_ndim t = zlen (t_shape t).
Proof. intros H. unfold t_ndim, tn_ndim. rewrite (wf_tr _ H). reflexivity. Qed.

Lemma tsh_pos t i : wft t -> 0 <= i < ntiles t -> pos (tsh t i).
Proof.
  intros H Hi. apply tshape_pos; [apply wf_len'|apply wf_ps|apply wf_pb|apply unoff_inb]; auto using wf_pg.
Qed.

Lemma tsz_pos t i : wft t -> 0 <= i < ntiles t -> 0 < tsz t i.
Proof. intros H Hi. apply prodZ_pos, tsh_pos; assumption. Qed.

Lemma get_tile_handle_ok t i : wft t -> 0 <= i < ntiles t -> get_tile_handle t i = Ok (th t i).
Proof. intros H Hi. unfold get_tile_handle. apply rd_ok. rewrite (wf_hl _ H). assumption. Qed.

Lemma get_tile_traits_ok t i : wft t -> 0 <= i < ntiles t -> get_tile_traits t i = Ok (tt_of (tsh t i)).
Proof.
  intros H Hi. unfold get_tile_traits. rewrite (wf_tt _ H).
  rewrite rd_ok by (rewrite zlen_ztab; lia). rewrite zn_ztab by assumption. reflexivity.
Qed.

Lemma get_tile_traits_idx_ok t tidx : wft t -> inb (gridZ (t_shape t) (t_base t)) tidx ->
  get_tile_traits_idx t tidx = Ok (tt_of (tshape (t_shape t) (t_base t) tidx)).
Proof.
  intros H Hi. unfold get_tile_traits_idx. fold (t_grid t). rewrite t_grid_eq by assumption.
  rewrite index_to_linear_ok by assumption. bnd. pose proof (off_bound _ _ Hi) as Hb.
  fold (ntiles t) in Hb. rewrite (wf_tt _ H).
  rewrite rd_ok by (rewrite zlen_ztab; lia). rewrite zn_ztab by assumption.
  unfold tsh. rewrite unoff_off by assumption. reflexivity.
Qed.

Lemma get_tile_handle_idx_ok t tidx : wft t -> inb (gridZ (t_shape t) (t_base t)) tidx ->
  get_tile_handle_idx t tidx = Ok (th t (off (gridZ (t_shape t) (t_base t)) tidx)).
Proof.
  intros H Hi. unfold get_tile_handle_idx. fold (t_grid t). rewrite t_grid_eq by assumption.
  rewrite index_to_linear_ok by assumption. bnd. pose proof (off_bound _ _ Hi) as Hb.
  apply rd_ok. rewrite (wf_hl _ H). assumption.
Qed.

Lemma th_In t i : wft t -> 0 <= i < ntiles t -> In (th t i) (tile_handles t).
Proof.
  intros H Hi. unfold th, zn. apply nth_In. pose proof (wf_hl _ H). unfold zlen in *. lia.
Qed.

Lemma In_th t h : wft t -> In h (tile_handles t) -> exists i, 0 <= i < ntiles t /\ h = th t i.
Proof.
  intros H Hi. apply (In_nth _ _ (@dflt handle DfltZ)) in Hi as (n & Hn & E).
  exists (Z.of_nat n). pose proof (wf_hl _ H). unfold zlen in *. split; [lia|].
  unfold th, zn. rewrite Nat2Z.id. symmetry. exact E.
Qed.

Lemma th_inj t i j : wft t -> 0 <= i < ntiles t -> 0 <= j < ntiles t -> th t i = th t j -> i = j.
Proof.
  intros H Hi Hj E. unfold th, zn in E. pose proof (wf_hl _ H) as Hl. unfold zlen in Hl.
  assert (Z.to_nat i = Z.to_nat j); [|lia].
  eapply NoDup_nth; [apply (wf_nd _ H)|lia|lia|exact E].
Qed.

Lemma th_neq t1 t2 i j : wft t1 -> wft t2 -> disj t1 t2 -> 0 <= i < ntiles t1 -> 0 <= j < ntiles t2 ->
  th t1 i <> th t2 j.
Proof.
  intros H1 H2 Hd Hi Hj E. apply (Hd (th t1 i)); [apply th_In; assumption|]. rewrite E. apply th_In; assumption.
Qed.

Lemma disj_sym t1 t2 : disj t1 t2 -> disj t2 t1.
Proof. intros H h H1 H2. apply (H h); assumption. Qed.

Lemma etile_bound t idx : wft t -> inb (t_shape t) idx -> 0 <= etile t idx < ntiles t.
Proof.
  intros H Hi. apply off_bound. apply tile_of_inb; [apply wf_len'|apply wf_pb|]; assumption.
Qed.

Lemma tsh_etile t idx : wft t -> inb (t_shape t) idx ->
  tsh t (etile t idx) = tshape (t_shape t) (t_base t) (tile_of (t_base t) idx).
Proof.
  intros H Hi. unfold tsh, etile. rewrite unoff_off; [reflexivity|].
  apply tile_of_inb; [apply wf_len'|apply wf_pb|]; assumption.
Qed.

Lemma eoff_bound t idx : wft t -> inb (t_shape t) idx -> 0 <= eoff t idx < tsz t (etile t idx).
Proof.
  intros H Hi. unfold tsz. rewrite tsh_etile by assumption. apply off_bound.
  apply in_tile_inb; [apply wf_len'|apply wf_pb|]; assumption.
Qed.

Lemma etile_ext t1 t2 idx : t_shape t1 = t_shape t2 -> t_base t1 = t_base t2 -> etile t1 idx = etile t2 idx.
Proof. intros E1 E2. unfold etile. rewrite E1, E2. reflexivity. Qed.
Lemma eoff_ext t1 t2 idx : t_shape t1 = t_shape t2 -> t_base t1 = t_base t2 -> eoff t1 idx = eoff t2 idx.
Proof. intros E1 E2. unfold eoff. rewrite E1, E2. reflexivity. Qed.
Lemma ntiles_ext t1 t2 : t_shape t1 = t_shape t2 -> t_base t1 = t_base t2 -> ntiles t1 = ntiles t2.
Proof. intros E1 E2. unfold ntiles. rewrite E1, E2. reflexivity. Qed.
Lemma tsz_ext t1 t2 i : t_shape t1 = t_shape t2 -> t_base t1 = t_base t2 -> tsz t1 i = tsz t2 i.
Proof. intros E1 E2. unfold tsz, tsh. rewrite E1, E2. reflexivity. Qed.

(** The element found at offset [o] of tile [i] (inverse of etile/eoff). *)
Definition eidx (t : tensor) (i o : Z) : list Z :=
  glob (t_base t) (unoff (gridZ (t_shape t) (t_base t)) i) (unoff (tsh t i) o).

Lemma eidx_spec t i o : wft t -> 0 <= i < ntiles t -> 0 <= o < tsz t i ->
  inb (t_shape t) (eidx t i o) /\ etile t (eidx t i o) = i /\ eoff t (eidx t i o) = o.
Proof.
  intros H Hi Ho. pose proof (unoff_inb _ _ (wf_pg _ H) Hi) as Hg.
  pose proof (unoff_inb _ _ (tsh_pos _ _ H Hi) Ho) as He.
  destruct (glob_inv (t_shape t) (t_base t) _ _ (wf_len' _ H) (wf_pb _ H) Hg He) as (G1 & G2 & G3).
  unfold eidx. split; [assumption|]. unfold etile, eoff. rewrite G2, G3.
  split; apply off_unoff; auto using wf_pg, tsh_pos.
Qed.

Lemma ty_BF (b : buf T) n : ty b = (KF, n) -> exists l, b = BF l /\ zlen l = n.
Proof. destruct b; simpl; intros E; inversion E; eauto. Qed.
Lemma ty_BI (b : buf T) n : ty b = (KI, n) -> exists l, b = BI l /\ zlen l = n.
Proof. destruct b; simpl; intros E; inversion E; eauto. Qed.
Lemma ty_BB (b : buf T) n : ty b = (KB, n) -> exists l, b = BB l /\ zlen l = n.
Proof. destruct b; simpl; intros E; inversion E; eauto. Qed.

(** Invariant "all buffers keep the type they have in s0". *)
Definition tinv (s0 : store T) : store T -> Prop := fun s => forall h, ty (s h) = ty (s0 h).

Lemma tinv_ext s0 : ext_inv (tinv s0).
Proof. intros s1 s2 E H h. rewrite <- E. apply H. Qed.
Lemma tinv_refl s0 : tinv s0 s0.
Proof. intros h. reflexivity. Qed.
Lemma tinv_stored s0 s k t : tinv s0 s -> stored k s0 t -> stored k s t.
Proof. intros H Hs i Hi. rewrite H. apply Hs; assumption. Qed.
Lemma tinv_typed s0 s hv : tinv s0 s -> typed hv s -> tinv s0 hv.
Proof. intros H Ht h. rewrite Ht. apply H. Qed.

Lemma tinv_app s0 (e : eff T) : (forall h f s, elookup e h = Some f -> tinv s0 s -> ty (f s) = ty (s0 h)) ->
  forall s, tinv s0 s -> tinv s0 (app_eff e s).
Proof.
  intros He s Hs h. unfold app_eff. destruct (elookup e h) as [f|] eqn:E; [eauto|apply Hs].
Qed.

(** *** Building effects *)
Lemma acc_dec (acc : list (handle * mode)) h' :
  (exists m', In (h', m') acc /\ m' <> MSCRATCH) \/ (forall m', In (h', m') acc -> m' = MSCRATCH).
Proof.
  induction acc as [|[h2 m2] acc IH]; [right; intros ? []|].
  destruct IH as [(m' & Hi & Hn)|Hn]; [left; exists m'; split; [right|]; assumption|].
  destruct (Z.eq_dec h2 h') as [->|Hne].
  - destruct m2; try (left; eexists; split; [left; reflexivity|discriminate]).
    right. intros m' [E|Hi]; [congruence|auto].
  - right. intros m' [E|Hi]; [congruence|auto].
Qed.

Lemma write_back_ok (acc : list (handle * mode)) : forall (out : list (buf T)) (s : store T) (v : store T),
  List.length out = List.length acc ->
  (forall k h m b, nth_error acc k = Some (h, m) -> nth_error out k = Some b -> m <> MSCRATCH -> b = v h) ->
  exists s', write_back acc out s = Ok s' /\
    (forall h m, In (h, m) acc -> m <> MSCRATCH -> s' h = v h) /\
    (forall h, (forall m, In (h, m) acc -> m = MSCRATCH) -> s' h = s h).
Proof.
  induction acc as [|[h m] acc IH]; intros out s v Hl Hv; destruct out as [|b out]; try discriminate.
  - exists s. simpl. repeat split; auto. intros ? ? [].
  - simpl in Hl. injection Hl as Hl.
    set (s1 := match m with MSCRATCH => s | _ => upd_store s h b end).
    destruct (IH out s1 v Hl) as (s' & E & H1 & H2).
    { intros k h' m' b' Ha Hb. apply (Hv (S k)); assumption. }
    exists s'. split; [exact E|].
    assert (Hs1 : m <> MSCRATCH -> s1 h = v h).
    { intros Hm. rewrite <- (Hv O h m b eq_refl eq_refl Hm). unfold s1, upd_store.
      destruct m; try congruence; rewrite Z.eqb_refl; reflexivity. }
    pose proof (acc_dec acc) as Dec.
    split.
    + intros h' m' [E'|Hi] Hm.
      * inversion E'; subst h' m'. destruct (Dec h) as [(m2 & Hi2 & Hn2)|Hn]; [eapply H1; eassumption|].
        rewrite H2 by assumption. apply Hs1; assumption.
      * eapply H1; eassumption.
    + intros h' Hn. rewrite H2 by (intros m' Hi; apply Hn; right; assumption).
      unfold s1, upd_store. destruct m; try reflexivity;
        (destruct (Z.eqb_spec h' h); [subst; exfalso; discriminate (Hn _ (or_introl eq_refl))|reflexivity]).
Qed.

Lemma mk_task_eff (I : store T -> Prop) t (e : eff T) :
  (forall s hv, I s -> typed hv s ->
     exists out, t_body t (map (in_buf s hv) (t_acc t)) = Ok out /\
       List.length out = List.length (t_acc t) /\
       forall k h m b, nth_error (t_acc t) k = Some (h, m) -> nth_error out k = Some b ->
         m <> MSCRATCH -> b = app_eff e s h) ->
  (forall h f, elookup e h = Some f -> exists m, In (h, m) (t_acc t) /\ writes m = true) ->
  (forall h f s1 s2, elookup e h = Some f ->
     (forall h m, In (h, m) (t_acc t) -> reads m = true -> s1 h = s2 h) -> f s1 = f s2) ->
  (forall h m, In (h, m) (t_acc t) -> writes m = true -> elookup e h <> None) ->
  (forall s, I s -> I (app_eff e s)) ->
  task_eff I t e.
Proof.
  intros Hrun Hwr Hrd Hall Hinv. constructor; eauto.
  intros s hv Hs Hhv. destruct (Hrun s hv Hs Hhv) as (out & E & Hl & Ho).
  unfold exec_task. rewrite E. bnd.
  destruct (write_back_ok (t_acc t) out s (app_eff e s) Hl Ho) as (s' & E' & H1 & H2).
  exists s'. split; [exact E'|]. intros h.
  unfold app_eff. destruct (elookup e h) as [f|] eqn:Ef.
  - destruct (Hwr h f Ef) as (m & Hm & Hw). rewrite (H1 h m Hm) by (intros ->; discriminate).
    unfold app_eff. rewrite Ef. reflexivity.
  - destruct (acc_dec (t_acc t) h) as [(m & Hm & Hn)|Hn].
    + rewrite (H1 h m Hm Hn). unfold app_eff. rewrite Ef. reflexivity.
    + apply H2. exact Hn.
Qed.
End Sem.
