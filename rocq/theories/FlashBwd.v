(** * Fused attention: tensor level, backward (any scalar operations, tiles of equal sizes) *)
From Verif Require Import Base Spec Geometry Traits TraitsProofs Runtime Ops TensorSem ElemGeneric OneOut
  KernelsElem ElemOps Axis AccRuns Loops SliceOps SliceGeo SliceProofs SliceReduce SoftmaxOps PairGeo SoftmaxProofs SoftmaxRuns Sequence
  MatOps GemmProofs LossOps LossProofs MultiRuns FlashOps FlashGeo FlashProofs FlashRuns.

Lemma zrange_app a n : 0 <= a -> 0 <= n -> zrange (n + a) = zrange n ++ map (fun k => k + n) (zrange a).
Proof.
  intros Ha Hn. pattern a. apply natlike_ind; [| |assumption].
  - cbn. rewrite Z.add_0_r, app_nil_r. reflexivity.
  - intros k Hk IH. unfold Z.succ. rewrite Z.add_assoc, !zrange_succ by lia. rewrite IH, map_app, <- app_assoc. cbn [map]. do 2 f_equal.
    f_equal. lia.
Qed.
Lemma filter_block a n c : 0 < a -> 0 <= c < n -> filter (fun i => i / a =? c) (zrange (a * n)) = map (fun k => k + a * c) (zrange a).
Proof.
  intros Ha Hc.
  assert (Bd : forall i, 0 <= i -> forall m, i < a * m <-> i / a < m).
  { intros i Hi m. split; intros; [apply Z.div_lt_upper_bound; lia|]. pose proof (Z.div_mod i a). pose proof (Z.mod_pos_bound i a). nia. }
  assert (G : forall m, 0 <= m -> filter (fun i => i / a =? c) (zrange (a * m)) = if m <=? c then [] else map (fun k => k + a * c) (zrange a)).
  { intros m Hm. pattern m. apply natlike_ind; [| |assumption].
    - rewrite Z.mul_0_r. destruct (Z.leb_spec 0 c); [reflexivity|lia].
    - intros k Hk IH. unfold Z.succ. rewrite Z.mul_add_distr_l, Z.mul_1_r, zrange_app by nia. rewrite filter_app, IH.
      assert (E : filter (fun i => i / a =? c) (map (fun x => x + a * k) (zrange a)) = if k =? c then map (fun x => x + a * c) (zrange a) else []).
      { destruct (Z.eqb_spec k c) as [->|Hne].
        - apply filter_all. intros i Hi. apply in_map_iff in Hi as (x & <- & Hx). apply zrange_In in Hx.
          destruct (mix_div a x c Hx) as [-> _]. apply Z.eqb_refl.
        - apply filter_none. intros i Hi. apply in_map_iff in Hi as (x & <- & Hx). apply zrange_In in Hx.
          destruct (mix_div a x k Hx) as [-> _]. apply Z.eqb_neq. assumption. }
      rewrite E. destruct (Z.eqb_spec k c), (Z.leb_spec k c), (Z.leb_spec (k + 1) c); try lia; rewrite ?app_nil_r, ?app_nil_l; reflexivity. }
  rewrite G by lia. destruct (Z.leb_spec n c); [lia|reflexivity].
Qed.
Lemma filter_prod_snd {A} (g : A -> bool) (l : list A) (k : list Z) j : NoDup k -> In j k ->
  filter (fun p => g (fst p) && (snd p =? j)) (list_prod l k) = map (fun i => (i, j)) (filter g l).
Proof.
  intros Hk Hj. induction l as [|x l IH]; [reflexivity|]. cbn [list_prod]. rewrite filter_app, IH. cbn [filter].
  assert (E : filter (fun p => g (fst p) && (snd p =? j)) (map (fun y => (x, y)) k) = if g x then [(x, j)] else []).
  { destruct (g x) eqn:Eg.
    - apply filter_single.
      + clear - Hk. induction Hk; cbn; constructor; auto. intros H'. apply in_map_iff in H' as (y & E & Hy). inversion E; subst. contradiction.
      + apply in_map. assumption.
      + cbn [fst snd]. rewrite Eg, Z.eqb_refl. reflexivity.
      + intros [a b] Hy Hf. apply in_map_iff in Hy as (y & E & Hy). inversion E; subst. cbn [fst snd] in Hf.
        apply andb_true_iff in Hf as [_ Hf]. apply Z.eqb_eq in Hf. congruence.
    - apply filter_none. intros [a b] Hy. apply in_map_iff in Hy as (y & E & Hy). inversion E; subst. cbn [fst snd]. rewrite Eg. reflexivity. }
  rewrite E. destruct (g x); reflexivity.
Qed.
Lemma filter_prod_both (g : Z -> bool) (l k : list Z) i : NoDup l -> In i l ->
  filter (fun p => (fst p =? i) && g (snd p)) (list_prod l k) = map (pair i) (filter g k).
Proof.
  intros Hl. induction Hl as [|x l Hx Hl IH]; intros Hi; [destruct Hi|]. cbn [list_prod]. rewrite filter_app.
  assert (E : filter (fun p => (fst p =? i) && g (snd p)) (map (fun y => (x, y)) k) = if x =? i then map (pair x) (filter g k) else []).
  { clear. induction k as [|y k IH]; [destruct (x =? i); reflexivity|]. cbn [map filter fst snd]. rewrite IH.
    destruct (x =? i); cbn [andb]; [destruct (g y)|]; reflexivity. }
  rewrite E. destruct (Z.eqb_spec x i) as [->|Hne].
  - rewrite (filter_none _ (list_prod l k)), app_nil_r; [reflexivity|]. intros [a b] Hp. apply in_prod_iff in Hp as [Ha _]. cbn [fst snd].
    destruct (Z.eqb_spec a i) as [->|]; [contradiction|reflexivity].
  - destruct Hi as [->|Hi]; [congruence|]. apply IH. assumption.
Qed.
Lemma eqb_th t i j : wft t -> 0 <= i < ntiles t -> 0 <= j < ntiles t -> (th t i =? th t j) = (i =? j).
Proof.
  intros HW Hi Hj. destruct (Z.eqb_spec i j) as [->|Hne]; [apply Z.eqb_refl|]. apply Z.eqb_neq. intros E. apply Hne. apply (th_inj t); assumption.
Qed.
Lemma eqb_th_ne t u i j : wft t -> wft u -> disj t u -> 0 <= i < ntiles t -> 0 <= j < ntiles u -> (th t i =? th u j) = false.
Proof. intros. apply Z.eqb_neq. apply th_neq; assumption. Qed.

Lemma fold_left_none {A B} (xs : list A) (F : A -> B -> B) (c : A -> bool) : forall b, (forall p, In p xs -> c p = false) ->
  fold_left (fun b p => if c p then F p b else b) xs b = b.
Proof.
  induction xs as [|p l IH]; intros b Hn; [reflexivity|]. cbn [fold_left].
  rewrite Hn by (left; reflexivity). apply IH. intros; apply Hn; right; assumption.
Qed.
Section R.
Context {T : Type} {O : Ops T}.
Local Notation vec := (list T).
Variables (h st bt nt gs gb gn : Z).
Hypotheses (Hh : 0 < h) (Hst : 0 < st) (Hbt : 0 < bt) (Hnt : 0 < nt) (Hgs : 0 < gs) (Hgb : 0 < gb) (Hgn : 0 < gn).
Hypothesis zz : o_eqb o_zero o_zero = true.
Hypothesis oz : o_eqb o_one o_zero = false.
Let N := gs * (gb * gn).
Let BT := bt * nt.
Local Notation shX := (shX h st bt nt gs gb gn).
Local Notation shP := (shP st bt nt gs gb gn).
Local Notation shS := (shS st bt nt gs gb gn).
Local Notation shT := (shT st bt nt gs gb gn).
Local Notation shM := (shM st gs).
Local Notation gc := (gc bt nt gb).
Local Notation cc := (cc bt nt).
Local Notation xpr := (xpr h).
Local Notation xdp := (xdp h).

(** gradient of the score, given the value sv of the sum of products for the query *)
Definition xds_of (s : store T) (Q K V mask ms dA : tensor) (sv : T) (k q x y : Z) : T :=
  if belem s mask [k; q] then
    o_mul (bc o_one (o_mul (o_neg o_one) sv) (xdp s V dA k q x y)) (xpr s Q K mask ms k q x y)
  else o_zero.
Definition xds (s : store T) (Q K V mask ms dA sp : tensor) (k q x y : Z) : T :=
  xds_of s Q K V mask ms dA (elem s sp [q; x; y]) k q x y.

Variables (Q dQ K dK V dV mask ms dA tmp grad sp : tensor).
Hypotheses (WQ : wft Q) (WdQ : wft dQ) (WK : wft K) (WdK : wft dK) (WV : wft V) (WdV : wft dV) (WM : wft mask) (WS : wft ms)
  (WA : wft dA) (WT : wft tmp) (WG : wft grad) (WP : wft sp).
Hypotheses (SQ : shX Q) (SdQ : shX dQ) (SK : shX K) (SdK : shX dK) (SV : shX V) (SdV : shX dV) (SM : shM mask) (SS : shP ms)
  (SA : shX dA) (ST : shT tmp) (SG : shT grad) (SP : shS sp).

Let nQ := nX h st bt nt gs gb gn Hh Hst Hbt Hnt Q SQ.
Let ndQ := nX h st bt nt gs gb gn Hh Hst Hbt Hnt dQ SdQ.
Let nK := nX h st bt nt gs gb gn Hh Hst Hbt Hnt K SK.
Let ndK := nX h st bt nt gs gb gn Hh Hst Hbt Hnt dK SdK.
Let nV := nX h st bt nt gs gb gn Hh Hst Hbt Hnt V SV.
Let ndV := nX h st bt nt gs gb gn Hh Hst Hbt Hnt dV SdV.
Let ndA := nX h st bt nt gs gb gn Hh Hst Hbt Hnt dA SA.

(** tile of queries: position j along the sequence, same batch tile as i *)
Definition qt (i j : Z) : Z := j + gs * (i / gs).
Definition tt4 (i j : Z) : Z := i mod gs + gs * qt i j.
Definition mt (i j : Z) : Z := i mod gs + gs * j.

Lemma qt_b i j : 0 <= i < N -> 0 <= j < gs -> 0 <= qt i j < N.
Proof.
  intros Hi Hj. assert (0 <= i / gs < gb * gn) by (unfold N in Hi; split; [apply Z.div_pos; lia|apply Z.div_lt_upper_bound; lia]).
  unfold N, qt. nia.
Qed.
Lemma tt4_b i j : 0 <= i < N -> 0 <= j < gs -> 0 <= tt4 i j < gs * N.
Proof. intros Hi Hj. pose proof (qt_b i j Hi Hj). pose proof (Z.mod_pos_bound i gs Hgs). unfold tt4. nia. Qed.
Lemma mt_b i j : 0 <= i < N -> 0 <= j < gs -> 0 <= mt i j < gs * gs.
Proof. intros Hi Hj. pose proof (Z.mod_pos_bound i gs Hgs). unfold mt. nia. Qed.

Lemma handles_ok i j : 0 <= i < N -> 0 <= j < gs ->
  flash_bwd_handles Q mask ms dA tmp grad sp (unoff [1; gs; gb; gn] i) j =
  Ok (th tmp (tt4 i j), th grad (tt4 i j), th sp (qt i j), th Q (qt i j), th dA (qt i j), th mask (mt i j), th ms (qt i j)).
Proof.
  intros Hi Hj. destruct (unoff_grid gs gb gn Hgs Hgb Hgn i Hi) as (x & y & U & B1 & B2 & B3 & E1 & E2). rewrite U.
  unfold flash_bwd_handles.
  change (rd [0; i mod gs; x; y] 1) with (Ok (i mod gs)). bnd.
  change (rd [0; i mod gs; x; y] 2) with (Ok x). bnd. change (rd [0; i mod gs; x; y] 3) with (Ok y). bnd.
  change (wr [0; i mod gs; x; y] 0 (i mod gs)) with (Ok [i mod gs; i mod gs; x; y]). bnd.
  change (wr [i mod gs; i mod gs; x; y] 1 j) with (Ok [i mod gs; j; x; y]). bnd.
  change (wr [0; i mod gs; x; y] 1 j) with (Ok [0; j; x; y]). bnd.
  rewrite !(hT st bt nt gs gb gn) by assumption. bnd. bnd. rewrite (hS st bt nt gs gb gn) by assumption. bnd.
  rewrite !(hX h st bt nt gs gb gn) by assumption. bnd. bnd. rewrite (hM st gs) by assumption. bnd.
  rewrite (hP st bt nt gs gb gn) by assumption. bnd. rewrite E2. reflexivity.
Qed.

Lemma rows i : 0 <= i < N -> linear_to_index (t_grid dV) i = Ok (unoff [1; gs; gb; gn] i) /\
  get_tile_handle_idx K (unoff [1; gs; gb; gn] i) = Ok (th K i) /\ get_tile_handle_idx V (unoff [1; gs; gb; gn] i) = Ok (th V i).
Proof.
  intros Hi. split; [apply (li_X h st bt nt gs gb gn); assumption|].
  destruct (unoff_grid gs gb gn Hgs Hgb Hgn i Hi) as (x & y & U & B1 & B2 & B3 & E1 & E2). rewrite U.
  rewrite !(hX h st bt nt gs gb gn) by assumption. rewrite <- E1. auto.
Qed.

(** ** First cycle *)
Let ys := list_prod (zrange N) (-3 :: -2 :: -1 :: zrange gs).
Definition b1_task (p : Z * Z) : task T :=
  let i := fst p in let j := snd p in
  if j =? -3 then clear_submit (th dQ i) else if j =? -2 then clear_submit (th dK i) else if j =? -1 then clear_submit (th dV i)
  else flash_bwd_sumprod_submit st h BT (th K i) (th Q (qt i j)) (th mask (mt i j)) (th ms (qt i j)) (th dA (qt i j)) (th V i)
         (th dV i) (th sp (qt i j)) (th tmp (tt4 i j)) (th grad (tt4 i j)).

Lemma bwd_first_submits : flash_bwd_first Q dQ K dK V dV mask ms dA tmp grad sp = Ok (map b1_task ys).
Proof.
  unfold flash_bwd_first. rewrite (dimsX h st bt nt gs gb gn Q) by assumption. bnd. rewrite t_ntiles_eq by assumption. rewrite ndV. fold N.
  rewrite (for_flat _ _ (fun i => map (fun j => b1_task (i, j)) (-3 :: -2 :: -1 :: zrange gs))).
  { rewrite app_nil_l. unfold ys. rewrite (flat_map_pairs (fun i j => b1_task (i, j))). f_equal. }
  intros i ts Hi. destruct (rows i Hi) as (R1 & R2 & R3).
  rewrite !get_tile_handle_ok by (assumption || (rewrite ?ndQ, ?ndK, ?ndV; assumption)). bnd. bnd. bnd. rewrite R1. bnd. rewrite R2, R3. bnd. bnd.
  cbv zeta. rewrite (gridX h st bt nt gs gb gn) by assumption. bnd.
  rewrite (for_map _ _ (fun j => b1_task (i, j))).
  - rewrite <- app_assoc. reflexivity.
  - intros j acc Hj. rewrite handles_ok by assumption. bnd. unfold b1_task. cbn [fst snd].
    destruct (Z.eqb_spec j (-3)); [lia|]. destruct (Z.eqb_spec j (-2)); [lia|]. destruct (Z.eqb_spec j (-1)); [lia|]. reflexivity.
Qed.
Lemma ys_In p : In p ys -> 0 <= fst p < N /\ (snd p = -3 \/ snd p = -2 \/ snd p = -1 \/ 0 <= snd p < gs).
Proof.
  destruct p as [i j]. intros Hx. unfold ys in Hx. apply in_prod_iff in Hx. cbn [In] in Hx. rewrite !zrange_In in Hx. cbn [fst snd].
  intuition lia.
Qed.

Definition b1_clr (j : Z) : bool := j <? 0.
Definition b1_pre (p : Z * Z) : list handle :=
  if b1_clr (snd p) then [] else
  let i := fst p in let j := snd p in
  [th K i; th Q (qt i j); th mask (mt i j); th ms (qt i j); th dA (qt i j); th V i].
Definition b1_outs (p : Z * Z) : list handle :=
  let i := fst p in let j := snd p in
  if j =? -3 then [th dQ i] else if j =? -2 then [th dK i] else if j =? -1 then [th dV i] else [th dV i; th sp (qt i j)].
Definition b1_scr (p : Z * Z) : list handle :=
  if b1_clr (snd p) then [] else [th tmp (tt4 (fst p) (snd p)); th grad (tt4 (fst p) (snd p))].
Definition pK (l : list (buf T)) := fl (nth 0 l (BF [])).
Definition pQ (l : list (buf T)) := fl (nth 1 l (BF [])).
Definition pM (l : list (buf T)) := bl (nth 2 l (BF [])).
Definition pS (l : list (buf T)) := fl (nth 3 l (BF [])).
Definition pA (l : list (buf T)) := fl (nth 4 l (BF [])).
Definition pV (l : list (buf T)) := fl (nth 5 l (BF [])).
Definition pP (l : list (buf T)) := fl (nth 6 l (BF [])).
Definition dv_val (l : list (buf T)) (o : Z) (v : T) : T :=
  gm o_one (o_mul o_one (dot st (fun q => zn (pA l) (cz [h; st; BT] 0 o + h * (q + st * cz [h; st; BT] 2 o)))
     (fun q => kpr st h (pK l) (pQ l) (pM l) (pS l) (cz [h; st; BT] 1 o) q (cz [h; st; BT] 2 o)))) v.
Definition sp_val (l : list (buf T)) (c : Z) (v : T) : T :=
  kres o_one o_one (ksum st (fun k => o_mul (kdp st h (pV l) (pA l) k (c mod st) (c / st))
                                            (kpr st h (pK l) (pQ l) (pM l) (pS l) k (c mod st) (c / st)))) v.
Definition b1_F (p : Z * Z) (g : handle) (l : list (buf T)) (b : buf T) : buf T :=
  if b1_clr (snd p) then BF (ztab (zlen (fl b)) (fun _ => o_zero))
  else if g =? th dV (fst p) then BF (ztab (h * (st * BT)) (fun o => dv_val l o (zn (fl b) o)))
  else BF (ztab (st * BT) (fun o => sp_val l o (zn (fl b) o))).

Lemma zrep_ztab n : 0 <= n -> zrep n (o_zero : T) = ztab n (fun _ => o_zero).
Proof.
  intros Hn. apply list_ext; [rewrite zlen_zrep, zlen_ztab by assumption; reflexivity|].
  intros o Ho. rewrite zlen_zrep in Ho by lia. rewrite zn_zrep, zn_ztab by lia. reflexivity.
Qed.
Hypotheses (dA1 : disj dQ dK) (dA2 : disj dQ dV) (dA3 : disj dQ sp) (dA4 : disj dK dV) (dA5 : disj dK sp) (dA6 : disj dV sp).
(** none of the inputs shares a tile with an output *)
Definition sep (X : tensor) : Prop := disj X dQ /\ disj X dK /\ disj X dV /\ disj X sp.
Hypotheses (EQ : sep Q) (EK : sep K) (EV : sep V) (EM : sep mask) (ES : sep ms) (EA : sep dA).

Lemma HBT : 0 < BT. Proof. unfold BT; nia. Qed.

Lemma b1_outs_In p g : In p ys -> In g (b1_outs p) ->
  (In g (tile_handles dQ) \/ In g (tile_handles dK) \/ In g (tile_handles dV) \/ In g (tile_handles sp)).
Proof.
  intros Hp Hg. apply ys_In in Hp as [Hi Hj]. unfold b1_outs in Hg.
  assert (Nsp : ntiles sp = N) by (apply (nS st bt nt gs gb gn); assumption).
  destruct (Z.eqb_spec (snd p) (-3)); [destruct Hg as [<-|[]]; left; apply th_In; [assumption|rewrite ndQ; assumption]|].
  destruct (Z.eqb_spec (snd p) (-2)); [destruct Hg as [<-|[]]; right; left; apply th_In; [assumption|rewrite ndK; assumption]|].
  destruct (Z.eqb_spec (snd p) (-1)); [destruct Hg as [<-|[]]; right; right; left; apply th_In; [assumption|rewrite ndV; assumption]|].
  destruct Hg as [<-|[<-|[]]].
  - right; right; left; apply th_In; [assumption|rewrite ndV; assumption].
  - right; right; right; apply th_In; [assumption|]. rewrite Nsp. apply qt_b; lia.
Qed.
Lemma sep_not X i g : wft X -> sep X -> 0 <= i < ntiles X -> g = th X i ->
  ~ (In g (tile_handles dQ) \/ In g (tile_handles dK) \/ In g (tile_handles dV) \/ In g (tile_handles sp)).
Proof.
  intros HW (A1 & A2 & A3 & A4) Hi -> Hin. pose proof (th_In X i HW Hi) as Hx.
  destruct Hin as [H|[H|[H|H]]]; [apply (A1 _ Hx H)|apply (A2 _ Hx H)|apply (A3 _ Hx H)|apply (A4 _ Hx H)].
Qed.

Theorem bwd_first_runs s :
  stored KF s Q -> stored KF s dQ -> stored KF s K -> stored KF s dK -> stored KF s V -> stored KF s dV -> stored KB s mask ->
  stored KF s ms -> stored KF s dA -> stored KF s tmp -> stored KF s grad -> stored KF s sp ->
  runs (flash_bwd_first Q dQ K dK V dV mask ms dA tmp grad sp) s (fun s' =>
    (forall d q x y, 0 <= d < h -> 0 <= q < gs * st -> 0 <= x < gb * bt -> 0 <= y < gn * nt ->
       elem s' dQ [d; q; x; y] = o_zero /\ elem s' dK [d; q; x; y] = o_zero /\
       elem s' dV [d; q; x; y] = fold_left (fun v j =>
         gm o_one (o_mul o_one (dot st (fun l => elem s dA [d; j * st + l; x; y]) (fun l => xpr s Q K mask ms q (j * st + l) x y))) v)
         (zrange gs) o_zero) /\
    (forall q x y, 0 <= q < gs * st -> 0 <= x < gb * bt -> 0 <= y < gn * nt ->
       elem s' sp [q; x; y] = fold_left (fun v j =>
         kres o_one o_one (ksum st (fun l => o_mul (xdp s V dA (j * st + l) q x y) (xpr s Q K mask ms (j * st + l) q x y))) v)
         (zrange gs) (elem s sp [q; x; y])) /\
    frame [dQ; dK; dV; sp] s s').
Proof.
  intros SQ' SdQ' SK' SdK' SV' SdV' SM' SS' SA' ST' SG' SP'.
  assert (Nm : ntiles mask = gs * gs) by (apply (nM st gs); assumption).
  assert (Ns : ntiles ms = N) by (apply (nP st bt nt gs gb gn); assumption).
  assert (Nt : ntiles tmp = gs * N) by (apply (nT st bt nt gs gb gn); assumption).
  assert (Ng : ntiles grad = gs * N) by (apply (nT st bt nt gs gb gn); assumption).
  assert (Nsp : ntiles sp = N) by (apply (nS st bt nt gs gb gn); assumption).
  pose proof HBT as HB.
  eapply runs_weaken; [apply (multi_runs ys b1_pre b1_outs b1_scr (fun p => if b1_clr (snd p) then MW else MRW)
    (fun p => if b1_clr (snd p) then clear_cpu else flash_bwd_sumprod_cpu st h BT) b1_F)|].
  - rewrite bwd_first_submits. f_equal. apply map_ext_in. intros p Hp. apply ys_In in Hp as [Hi Hj].
    unfold b1_task, b1_pre, b1_outs, b1_scr, b1_clr.
    destruct Hj as [Hj|[Hj|[Hj|Hj]]]; [rewrite Hj; reflexivity|rewrite Hj; reflexivity|rewrite Hj; reflexivity|].
    destruct (Z.eqb_spec (snd p) (-3)); [lia|]. destruct (Z.eqb_spec (snd p) (-2)); [lia|]. destruct (Z.eqb_spec (snd p) (-1)); [lia|].
    destruct (Z.ltb_spec (snd p) 0); [lia|]. reflexivity.
  - intros p _. destruct (b1_clr (snd p)); auto.
  - intros p p' g Hp Hp' Hg Hg'. apply (b1_outs_In p' g Hp') in Hg'. apply ys_In in Hp as [Hi Hj].
    unfold b1_pre, b1_clr in Hg. destruct (Z.ltb_spec (snd p) 0); [destruct Hg|].
    assert (Hj' : 0 <= snd p < gs) by lia. pose proof (qt_b _ _ Hi Hj') as Hq. pose proof (mt_b _ _ Hi Hj') as Hm.
    cbv zeta in Hg. cbn [In] in Hg. revert Hg'.
    destruct Hg as [E|[E|[E|[E|[E|[E|[]]]]]]]; symmetry in E;
      eapply sep_not; [| | |exact E| | | |exact E| | | |exact E| | | |exact E| | | |exact E| | | |exact E]; first [assumption|lia].
  - intros p g l b b' _ Hm Ht. unfold b1_F. destruct (b1_clr (snd p)); [|discriminate]. do 2 f_equal.
    destruct b, b'; inversion Ht; cbn [fl]; congruence.
  - intros p g t b Hp Hg Ht Hb. apply ys_In in Hp as [Hi Hj]. unfold b1_F, b1_clr.
    assert (Hdv : ty (s (th dV (fst p))) = (KF, h * (st * BT))).
    { rewrite SdV' by (rewrite ndV; assumption). rewrite (zX h st bt nt gs gb gn) by assumption. reflexivity. }
    unfold b1_outs in Hg.
    destruct Hj as [Hj|[Hj|[Hj|Hj]]]; [rewrite Hj in *; cbn in Hg; destruct Hg as [<-|[]]..|].
    + rewrite SdQ' in Hb by (rewrite ndQ; assumption). destruct (ty_BF _ _ Hb) as (d & -> & Hd). change (-3 <? 0) with true. cbn [fl].
      cbn [ty]. rewrite zlen_ztab by apply zlen_nonneg. rewrite SdQ' by (rewrite ndQ; assumption). congruence.
    + rewrite SdK' in Hb by (rewrite ndK; assumption). destruct (ty_BF _ _ Hb) as (d & -> & Hd). change (-2 <? 0) with true. cbn [fl].
      cbn [ty]. rewrite zlen_ztab by apply zlen_nonneg. rewrite SdK' by (rewrite ndK; assumption). congruence.
    + rewrite Hdv in Hb. destruct (ty_BF _ _ Hb) as (d & -> & Hd). change (-1 <? 0) with true. cbn [fl].
      cbn [ty]. rewrite zlen_ztab by apply zlen_nonneg. rewrite Hdv. congruence.
    + destruct (Z.ltb_spec (snd p) 0); [lia|].
      destruct (Z.eqb_spec (snd p) (-3)); [lia|]. destruct (Z.eqb_spec (snd p) (-2)); [lia|]. destruct (Z.eqb_spec (snd p) (-1)); [lia|].
      destruct Hg as [<-|[<-|[]]].
      * rewrite Z.eqb_refl. rewrite Hdv. cbn [ty]. rewrite zlen_ztab by nia. reflexivity.
      * pose proof (qt_b _ _ Hi Hj) as Hq. destruct (Z.eqb_spec (th sp (qt (fst p) (snd p))) (th dV (fst p))) as [E|_].
        { exfalso. apply (th_neq dV sp (fst p) (qt (fst p) (snd p)) WdV WP dA6); [rewrite ndV; assumption|lia|congruence]. }
        rewrite SP' by lia. rewrite (zS st bt nt gs gb gn) by assumption. cbn [ty]. rewrite zlen_ztab by nia. reflexivity.
  - intros p t v sc Hp Ht Hv Hsc. apply ys_In in Hp as [Hi Hj]. unfold b1_pre, b1_outs, b1_scr, b1_F, b1_clr in *.
    destruct Hj as [Hj|[Hj|[Hj|Hj]]]; [rewrite Hj in *; cbn [map app Z.eqb Z.ltb Z.compare Pos.eqb CompOpp] in *..|].
    + destruct sc; [|discriminate]. exists []. split; [|reflexivity].
      destruct (bufF s v dQ (fst p) Hv SdQ' ltac:(rewrite ndQ; assumption)) as (d & E & Hd). rewrite E. cbn. rewrite zrep_ztab by apply zlen_nonneg. reflexivity.
    + destruct sc; [|discriminate]. exists []. split; [|reflexivity].
      destruct (bufF s v dK (fst p) Hv SdK' ltac:(rewrite ndK; assumption)) as (d & E & Hd). rewrite E. cbn. rewrite zrep_ztab by apply zlen_nonneg. reflexivity.
    + destruct sc; [|discriminate]. exists []. split; [|reflexivity].
      destruct (bufF s v dV (fst p) Hv SdV' ltac:(rewrite ndV; assumption)) as (d & E & Hd). rewrite E. cbn. rewrite zrep_ztab by apply zlen_nonneg. reflexivity.
    + destruct (Z.ltb_spec (snd p) 0); [lia|].
      destruct (Z.eqb_spec (snd p) (-3)); [lia|]. destruct (Z.eqb_spec (snd p) (-2)); [lia|]. destruct (Z.eqb_spec (snd p) (-1)); [lia|].
      pose proof (qt_b _ _ Hi Hj) as Hq. pose proof (mt_b _ _ Hi Hj) as Hm. pose proof (tt4_b _ _ Hi Hj) as H4.
      set (i := fst p) in *. set (j := snd p) in *. cbv zeta in *.
      destruct (bufF s t K i Ht SK' ltac:(rewrite nK; assumption)) as (lk & Ek & Lk).
      destruct (bufF s t V i Ht SV' ltac:(rewrite nV; assumption)) as (lv & Ev & Lv).
      destruct (bufF s t Q (qt i j) Ht SQ' ltac:(rewrite nQ; assumption)) as (lq & Eq & Lq).
      destruct (bufF s t dA (qt i j) Ht SA' ltac:(rewrite ndA; assumption)) as (la & Ea & La).
      destruct (bufF s t ms (qt i j) Ht SS' ltac:(lia)) as (ls & Es & Ls).
      destruct (ty_BB _ _ (buf_at s t KB mask (mt i j) Ht SM' ltac:(lia))) as (lm & Em & Lm).
      destruct (bufF s v dV i Hv SdV' ltac:(rewrite ndV; assumption)) as (ld & Ed & Ld).
      destruct (bufF s v sp (qt i j) Hv SP' ltac:(lia)) as (lp & Ep & Lp).
      destruct sc as [|b1 [|b2 [|? ?]]]; cbn [map] in Hsc; [discriminate|discriminate| |discriminate].
      pose proof (ST' (tt4 i j) ltac:(lia)) as Ty1. pose proof (SG' (tt4 i j) ltac:(lia)) as Ty2.
      assert (Ha1 : ty b1 = ty (s (th tmp (tt4 i j)))) by congruence. assert (Ha2 : ty b2 = ty (s (th grad (tt4 i j)))) by congruence.
      rewrite Ty1 in Ha1. rewrite Ty2 in Ha2.
      destruct (ty_BF _ _ Ha1) as (l1 & -> & L1). destruct (ty_BF _ _ Ha2) as (l2 & -> & L2).
      rewrite (zX h st bt nt gs gb gn) in Lk, Lq, Lv, La, Ld by assumption.
      rewrite (zM st gs) in Lm by assumption. rewrite (zT st bt nt gs gb gn) in L1, L2 by assumption.
      rewrite (zP st bt nt gs gb gn) in Ls by assumption. rewrite (zS st bt nt gs gb gn) in Lp by assumption.
      cbn [map app]. rewrite Ek, Eq, Em, Ev, Es, Ea, Ed, Ep.
      destruct (flash_bwd_sumprod_ok st h BT Hst Hh HB zz lk lq lm ls la lv ld lp l1 l2) as (t1 & t2 & E); try (unfold BT; assumption).
      exists [BF t1; BF t2]. rewrite E. split; [|reflexivity]. cbn [app fl]. rewrite Z.eqb_refl.
      destruct (Z.eqb_spec (th sp (qt i j)) (th dV i)) as [E'|_].
      { exfalso. apply (th_neq dV sp i (qt i j) WdV WP dA6); [rewrite ndV; assumption|lia|congruence]. }
      match goal with |- Ok [_; _; _; _; _; _; BF ?a; BF ?b; _; _] = Ok [_; _; _; _; _; _; BF ?c; BF ?d; _; _] =>
        assert (E1 : a = c); [|assert (E2 : b = d); [|rewrite E1, E2; reflexivity]] end.
      * unfold tab3. apply ztab_ext. intros o Ho. destruct (cz3_inv h st BT o Hh Hst HB Ho) as (_ & _ & _ & C). rewrite C. reflexivity.
      * reflexivity.
  - intros s' _ Hs'.
    assert (EdV : forall d q x y, 0 <= d < h -> 0 <= q < gs * st -> 0 <= x < gb * bt -> 0 <= y < gn * nt ->
      0 <= q / st + gs * gc x y < N).
    { intros d q x y Hd Hq Hx Hy. destruct (ediv gs st q Hst Hq) as (Q1 & Q2 & Q3). pose proof (gc_bound bt nt gb gn Hbt Hnt x y Hx Hy) as G.
      apply mix_bound; assumption. }
    assert (Hex : forall p, In p ys -> forall i, 0 <= i < N ->
      existsb (Z.eqb (th dQ i)) (b1_outs p) = (fst p =? i) && (snd p =? -3) /\
      existsb (Z.eqb (th dK i)) (b1_outs p) = (fst p =? i) && (snd p =? -2) /\
      existsb (Z.eqb (th dV i)) (b1_outs p) = (fst p =? i) && (-1 <=? snd p) /\
      existsb (Z.eqb (th sp i)) (b1_outs p) = (fst p / gs =? i / gs) && (snd p =? i mod gs)).
    { intros p Hp i Hi. apply ys_In in Hp as [Hi' Hj]. unfold b1_outs. pose proof (Z.mod_pos_bound i gs Hgs) as Hmod.
      assert (E1 : (th dQ i =? th dQ (fst p)) = (fst p =? i)) by (rewrite eqb_th by (rewrite ?ndQ; assumption); apply Z.eqb_sym).
      assert (E2 : (th dK i =? th dK (fst p)) = (fst p =? i)) by (rewrite eqb_th by (rewrite ?ndK; assumption); apply Z.eqb_sym).
      assert (E3 : (th dV i =? th dV (fst p)) = (fst p =? i)) by (rewrite eqb_th by (rewrite ?ndV; assumption); apply Z.eqb_sym).
      assert (X1 : (th dQ i =? th dK (fst p)) = false) by (apply eqb_th_ne; rewrite ?ndQ, ?ndK; assumption).
      assert (X2 : (th dQ i =? th dV (fst p)) = false) by (apply eqb_th_ne; rewrite ?ndQ, ?ndV; assumption).
      assert (X3 : (th dK i =? th dQ (fst p)) = false) by (apply eqb_th_ne; rewrite ?ndQ, ?ndK; try assumption; apply disj_sym; assumption).
      assert (X4 : (th dK i =? th dV (fst p)) = false) by (apply eqb_th_ne; rewrite ?ndV, ?ndK; assumption).
      assert (X5 : (th dV i =? th dQ (fst p)) = false) by (apply eqb_th_ne; rewrite ?ndQ, ?ndV; try assumption; apply disj_sym; assumption).
      assert (X6 : (th dV i =? th dK (fst p)) = false) by (apply eqb_th_ne; rewrite ?ndK, ?ndV; try assumption; apply disj_sym; assumption).
      assert (X7 : (th sp i =? th dQ (fst p)) = false) by (apply eqb_th_ne; rewrite ?ndQ, ?Nsp; try assumption; apply disj_sym; assumption).
      assert (X8 : (th sp i =? th dK (fst p)) = false) by (apply eqb_th_ne; rewrite ?ndK, ?Nsp; try assumption; apply disj_sym; assumption).
      assert (X9 : (th sp i =? th dV (fst p)) = false) by (apply eqb_th_ne; rewrite ?ndV, ?Nsp; try assumption; apply disj_sym; assumption).
      destruct Hj as [Hj|[Hj|[Hj|Hj]]]; [rewrite Hj..|].
      - assert (Y : (-3 =? i mod gs) = false) by (apply Z.eqb_neq; clear - Hmod; lia). rewrite Y.
        change (-3 =? -3) with true. change (-3 =? -2) with false. change (-1 <=? -3) with false. cbv iota. cbn [existsb].
        rewrite ?E1, ?E2, ?E3, ?X1, ?X2, ?X3, ?X4, ?X5, ?X6, ?X7, ?X8, ?X9. rewrite ?andb_false_r, ?orb_false_r, ?andb_true_r. auto.
      - assert (Y : (-2 =? i mod gs) = false) by (apply Z.eqb_neq; clear - Hmod; lia). rewrite Y.
        change (-2 =? -3) with false. change (-2 =? -2) with true. change (-1 <=? -2) with false. cbv iota. cbn [existsb].
        rewrite ?E1, ?E2, ?E3, ?X1, ?X2, ?X3, ?X4, ?X5, ?X6, ?X7, ?X8, ?X9. rewrite ?andb_false_r, ?orb_false_r, ?andb_true_r. auto.
      - assert (Y : (-1 =? i mod gs) = false) by (apply Z.eqb_neq; clear - Hmod; lia). rewrite Y.
        change (-1 =? -3) with false. change (-1 =? -2) with false. change (-1 =? -1) with true. change (-1 <=? -1) with true. cbv iota. cbn [existsb].
        rewrite ?E1, ?E2, ?E3, ?X1, ?X2, ?X3, ?X4, ?X5, ?X6, ?X7, ?X8, ?X9. rewrite ?andb_false_r, ?orb_false_r, ?andb_true_r. auto.
      - assert (L1 : (snd p =? -3) = false) by (apply Z.eqb_neq; clear - Hj; lia). assert (L2 : (snd p =? -2) = false) by (apply Z.eqb_neq; clear - Hj; lia).
        assert (L3 : (snd p =? -1) = false) by (apply Z.eqb_neq; clear - Hj; lia). assert (L4 : (-1 <=? snd p) = true) by (apply Z.leb_le; clear - Hj; lia).
        rewrite L1, L2, L3, L4.
        pose proof (qt_b _ _ Hi' Hj) as Hq.
        assert (Z1 : (th dQ i =? th sp (qt (fst p) (snd p))) = false) by (apply eqb_th_ne; rewrite ?ndQ, ?Nsp; assumption).
        assert (Z2 : (th dK i =? th sp (qt (fst p) (snd p))) = false) by (apply eqb_th_ne; rewrite ?ndK, ?Nsp; assumption).
        assert (Z3 : (th dV i =? th sp (qt (fst p) (snd p))) = false) by (apply eqb_th_ne; rewrite ?ndV, ?Nsp; assumption).
        assert (Z4 : (th sp i =? th sp (qt (fst p) (snd p))) = (i =? qt (fst p) (snd p))) by (apply eqb_th; rewrite ?Nsp; assumption).
        cbn [existsb]. rewrite E3, X2, X4, X9, Z1, Z2, Z3, Z4. rewrite ?andb_false_r, ?orb_false_r. cbn [orb]. split; [reflexivity|]. split; [reflexivity|]. split.
        + rewrite andb_true_r. reflexivity.
        + unfold qt. destruct (Z.eqb_spec i (snd p + gs * (fst p / gs))) as [E|E].
          * destruct (mix_div gs (snd p) (fst p / gs) Hj) as [M1 M2]. rewrite <- E in M1, M2. rewrite M1, M2, !Z.eqb_refl. reflexivity.
          * symmetry. apply andb_false_iff. destruct (Z.eqb_spec (fst p / gs) (i / gs)) as [E4|]; [|auto]. right. apply Z.eqb_neq. intros E5.
            apply E. rewrite E4, E5. pose proof (Z.div_mod i gs) as D. clear - D Hgs. lia. }
    assert (Hone : forall i, 0 <= i < N -> filter (fun a => a =? i) (zrange N) = [i]).
    { intros i Hi. apply filter_single; [apply NoDup_zrange|apply zrange_In; assumption|apply Z.eqb_refl|].
      intros y _ E. apply Z.eqb_eq in E. assumption. }
    assert (NDl : NoDup (-3 :: -2 :: -1 :: zrange gs)).
    { repeat constructor; try apply NoDup_zrange; cbn [In]; rewrite ?zrange_In; lia. }
    split; [|split].
    + intros d q x y Hd Hq Hx Hy. pose proof (EdV d q x y Hd Hq Hx Hy) as Hi.
      set (i := q / st + gs * gc x y) in *. split; [|split].
      * assert (Hin : inb (t_shape dQ) [d; q; x; y]) by (rewrite (proj1 SdQ); inbt).
        assert (Et : etile dQ [d; q; x; y] = i) by (apply (tX h st bt nt gs gb gn); assumption).
        rewrite (multi_elem ys b1_outs (fun p g b => b1_F p g (map s (b1_pre p)) b) (fun p o v => o_zero) dQ s s'); try assumption.
        -- rewrite Et. rewrite (filter_ext' _ (fun p => (fst p =? i) && (snd p =? -3))); [|intros p Hp; apply Hex; assumption].
           unfold ys. rewrite (filter_prod_snd (fun a => a =? i)); [|assumption|left; reflexivity]. rewrite Hone by assumption. reflexivity.
        -- rewrite Et. intros p l Hp Ho Hl. apply existsb_In in Ho. rewrite (proj1 (Hex p Hp i Hi)) in Ho. apply andb_true_iff in Ho as [_ Ho].
           apply Z.eqb_eq in Ho. unfold b1_F. rewrite Ho. change (b1_clr (-3)) with true. cbn [fl]. rewrite Hl. reflexivity.
      * assert (Hin : inb (t_shape dK) [d; q; x; y]) by (rewrite (proj1 SdK); inbt).
        assert (Et : etile dK [d; q; x; y] = i) by (apply (tX h st bt nt gs gb gn); assumption).
        rewrite (multi_elem ys b1_outs (fun p g b => b1_F p g (map s (b1_pre p)) b) (fun p o v => o_zero) dK s s'); try assumption.
        -- rewrite Et. rewrite (filter_ext' _ (fun p => (fst p =? i) && (snd p =? -2))); [|intros p Hp; apply Hex; assumption].
           unfold ys. rewrite (filter_prod_snd (fun a => a =? i)); [|assumption|right; left; reflexivity]. rewrite Hone by assumption. reflexivity.
        -- rewrite Et. intros p l Hp Ho Hl. apply existsb_In in Ho. rewrite (proj1 (proj2 (Hex p Hp i Hi))) in Ho. apply andb_true_iff in Ho as [_ Ho].
           apply Z.eqb_eq in Ho. unfold b1_F. rewrite Ho. change (b1_clr (-2)) with true. cbn [fl]. rewrite Hl. reflexivity.
      * assert (Hin : inb (t_shape dV) [d; q; x; y]) by (rewrite (proj1 SdV); inbt).
        assert (Et : etile dV [d; q; x; y] = i) by (apply (tX h st bt nt gs gb gn); assumption).
        rewrite (multi_elem ys b1_outs (fun p g b => b1_F p g (map s (b1_pre p)) b)
          (fun p o v => if b1_clr (snd p) then o_zero else dv_val (map s (b1_pre p)) o v) dV s s'); try assumption.
        -- rewrite Et. rewrite (filter_ext' _ (fun p => (fst p =? i) && (-1 <=? snd p))); [|intros p Hp; apply Hex; assumption].
           unfold ys. rewrite (filter_prod_both (fun b => -1 <=? b)); [|apply NoDup_zrange|apply zrange_In; assumption].
           cbn [filter]. change (-1 <=? -3) with false. change (-1 <=? -2) with false. change (-1 <=? -1) with true. cbv iota.
           rewrite filter_all by (intros b Hb; apply zrange_In in Hb; apply Z.leb_le; lia).
           cbn [map fold_left snd]. change (b1_clr (-1)) with true. cbv iota. rewrite fold_left_map'. apply fold_left_ext.
           intros v j Hj. apply zrange_In in Hj. cbn [snd]. unfold b1_pre. cbn [fst snd]. unfold b1_clr. destruct (Z.ltb_spec j 0); [lia|].
           unfold dv_val, pA, pK, pQ, pM, pS. cbn [map nth].
           destruct (ediv gs st q Hst Hq) as (Q1 & Q2 & Q3).
           rewrite (oX h st bt nt gs gb gn) by assumption. pose proof (cc_bound bt nt gb gn Hbt Hnt x y Hx Hy) as Cb. fold BT in Cb.
           destruct (cz3 h st BT d (q mod st) (cc x y) Hd Q2 Cb) as (C0 & C1 & C2 & _). rewrite C0, C1, C2.
           destruct (mix_div gs (q / st) (gc x y) Q1) as [M1 M2]. fold i in M1, M2. unfold qt, mt. rewrite M1, M2.
           f_equal. f_equal. apply dot_ext; intros l Hl.
           ++ apply (elX h st bt nt gs gb gn); assumption.
           ++ assert (Hjl : 0 <= j * st + l < gs * st) by nia. destruct (edivj st j l Hst Hl) as [F1 F2].
              pose proof (kpr_el h st bt nt gs gb gn Hh Hst Hbt Hnt Q K mask SQ SK SM s ms (q / st) (q mod st) (j * st + l) x y WS SS Q1 Q2 Hjl Hx Hy) as E.
              rewrite F1, F2 in E. rewrite <- Q3 in E. exact E.
        -- rewrite Et. intros p l Hp Ho Hl. unfold b1_F. destruct (b1_clr (snd p)); [cbn [fl]; rewrite Hl; reflexivity|].
           apply existsb_In in Ho. rewrite (proj1 (proj2 (proj2 (Hex p Hp i Hi)))) in Ho. apply andb_true_iff in Ho as [Ho _].
           apply Z.eqb_eq in Ho. rewrite Ho, Z.eqb_refl. cbn [fl]. rewrite (zX h st bt nt gs gb gn) by assumption. reflexivity.
    + intros q x y Hq Hx Hy. pose proof (EdV 0 q x y ltac:(lia) Hq Hx Hy) as Hi.
      set (i := q / st + gs * gc x y) in *.
      assert (Hin : inb (t_shape sp) [q; x; y]) by (rewrite (proj1 SP); inbt).
      assert (Et : etile sp [q; x; y] = i) by (apply (tS st bt nt gs gb gn); assumption).
      destruct (ediv gs st q Hst Hq) as (Q1 & Q2 & Q3). pose proof (gc_bound bt nt gb gn Hbt Hnt x y Hx Hy) as G.
      destruct (mix_div gs (q / st) (gc x y) Q1) as [M1 M2]. fold i in M1, M2.
      rewrite (multi_elem ys b1_outs (fun p g b => b1_F p g (map s (b1_pre p)) b) (fun p o v => sp_val (map s (b1_pre p)) o v) sp s s'); try assumption.
      * rewrite Et. rewrite (filter_ext' _ (fun p => (fst p / gs =? i / gs) && (snd p =? i mod gs))); [|intros p Hp; apply Hex; assumption].
        unfold ys. rewrite (filter_prod_snd (fun a => a / gs =? i / gs)); [|assumption|rewrite M2; cbn [In]; rewrite zrange_In; auto].
        rewrite M1, M2. unfold N. rewrite (filter_block gs (gb * gn) (gc x y)) by assumption. rewrite map_map.
        rewrite fold_left_map'. apply fold_left_ext. intros v j Hj. apply zrange_In in Hj.
        rewrite (oS st bt nt gs gb gn) by assumption.
        unfold b1_pre. cbn [fst snd]. unfold b1_clr. destruct (Z.ltb_spec (q / st) 0); [lia|].
        unfold sp_val, pA, pK, pQ, pM, pS, pV. cbn [map nth].
        destruct (mix_div gs j (gc x y) Hj) as [M5 M6]. unfold qt, mt. rewrite M5, M6.
        destruct (mix_div st (q mod st) (cc x y) Q2) as [M3 M4]. rewrite M3, M4.
        f_equal. apply ksum_ext. intros l Hl. f_equal.
        -- unfold kdp, FlashRuns.xdp. f_equal. apply dot_ext; intros d Hd; unfold col.
           ++ apply (elX h st bt nt gs gb gn); assumption.
           ++ rewrite (elX h st bt nt gs gb gn) by assumption. rewrite <- Q3. reflexivity.
        -- apply (kpr_el h st bt nt gs gb gn); assumption.
      * rewrite Et. intros p l Hp Ho Hl. apply existsb_In in Ho. rewrite (proj2 (proj2 (proj2 (Hex p Hp i Hi)))) in Ho. apply andb_true_iff in Ho as [Ho1 Ho2].
        apply Z.eqb_eq in Ho2. apply ys_In in Hp as [Hi' _]. unfold b1_F, b1_clr. rewrite Ho2, M2. destruct (Z.ltb_spec (q / st) 0); [lia|].
        rewrite eqb_th_ne; [|assumption|assumption|apply disj_sym; assumption|lia|rewrite ndV; assumption].
        cbn [fl]. rewrite (zS st bt nt gs gb gn) by assumption. reflexivity.
    + intros g Hg. rewrite Hs'.
      assert (Hn : forall p, In p ys -> existsb (Z.eqb g) (b1_outs p) = false).
      { intros p Hp. apply existsb_nIn. intros H. apply (b1_outs_In p g Hp) in H.
        destruct H as [H|[H|[H|H]]]; [apply (Hg dQ)|apply (Hg dK)|apply (Hg dV)|apply (Hg sp)]; cbn [In]; auto. }
      apply (fold_left_none ys (fun p b => b1_F p g (map s (b1_pre p)) b)). assumption.
Qed.

(** ** Second cycle *)
Let zs := list_prod (zrange N) (zrange gs).
Definition b2_task (p : Z * Z) : task T :=
  let i := fst p in let j := snd p in
  flash_bwd_dq_dk_submit st h BT (th K i) (th Q (qt i j)) (th mask (mt i j)) (th ms (qt i j)) (th dA (qt i j)) (th V i)
         (th sp (qt i j)) (th dQ (qt i j)) (th dK i) (th tmp (tt4 i j)) (th grad (tt4 i j)).
Lemma bwd_second_submits : flash_bwd_second Q dQ K dK V dV mask ms dA tmp grad sp = Ok (map b2_task zs).
Proof.
  unfold flash_bwd_second. rewrite (dimsX h st bt nt gs gb gn Q) by assumption. bnd. rewrite t_ntiles_eq by assumption. rewrite ndV. fold N.
  rewrite (for_flat _ _ (fun i => map (fun j => b2_task (i, j)) (zrange gs))).
  { rewrite app_nil_l. unfold zs. rewrite (flat_map_pairs (fun i j => b2_task (i, j))). f_equal. }
  intros i ts Hi. destruct (rows i Hi) as (R1 & R2 & R3).
  rewrite !get_tile_handle_ok by (assumption || (rewrite ?ndK; assumption)). bnd. rewrite R1. bnd. rewrite R2, R3. bnd. bnd.
  rewrite (gridX h st bt nt gs gb gn) by assumption. bnd.
  rewrite (for_map _ _ (fun j => b2_task (i, j))); [reflexivity|].
  intros j acc Hj. rewrite handles_ok by assumption. bnd. unfold b2_task. cbn [fst snd].
  destruct (unoff_grid gs gb gn Hgs Hgb Hgn i Hi) as (x & y & U & B1 & B2 & B3 & E1 & E2). rewrite U.
  change (wr [0; i mod gs; x; y] 1 j) with (Ok [0; j; x; y]). bnd.
  rewrite !(hX h st bt nt gs gb gn) by assumption. bnd. rewrite E2. reflexivity.
Qed.
Lemma zs_In p : In p zs -> 0 <= fst p < N /\ 0 <= snd p < gs.
Proof. destruct p as [i j]. intros Hx. unfold zs in Hx. apply in_prod_iff in Hx. rewrite !zrange_In in Hx. exact Hx. Qed.

Definition b2_pre (p : Z * Z) : list handle :=
  let i := fst p in let j := snd p in
  [th K i; th Q (qt i j); th mask (mt i j); th ms (qt i j); th dA (qt i j); th V i; th sp (qt i j)].
Definition b2_outs (p : Z * Z) : list handle := [th dQ (qt (fst p) (snd p)); th dK (fst p)].
Definition b2_scr (p : Z * Z) : list handle := [th tmp (tt4 (fst p) (snd p)); th grad (tt4 (fst p) (snd p))].
Definition ds_val (l : list (buf T)) := kds st h (pK l) (pQ l) (pM l) (pS l) (pA l) (pV l) (pP l).
Definition dq_val (l : list (buf T)) (o : Z) (v : T) : T :=
  gm o_one (o_mul (flash_scale h) (dot st (fun k => zn (pK l) (cz [h; st; BT] 0 o + h * (k + st * cz [h; st; BT] 2 o)))
     (fun k => ds_val l k (cz [h; st; BT] 1 o) (cz [h; st; BT] 2 o)))) v.
Definition dk_val (l : list (buf T)) (o : Z) (v : T) : T :=
  gm o_one (o_mul (flash_scale h) (dot st (fun q => zn (pQ l) (cz [h; st; BT] 0 o + h * (q + st * cz [h; st; BT] 2 o)))
     (fun q => ds_val l (cz [h; st; BT] 1 o) q (cz [h; st; BT] 2 o)))) v.
Definition b2_F (p : Z * Z) (g : handle) (l : list (buf T)) (b : buf T) : buf T :=
  BF (ztab (h * (st * BT)) (fun o => (if g =? th dK (fst p) then dk_val l else dq_val l) o (zn (fl b) o))).
Lemma b2_outs_In p g : In p zs -> In g (b2_outs p) -> In g (tile_handles dQ) \/ In g (tile_handles dK).
Proof.
  intros Hp Hg. apply zs_In in Hp as [Hi Hj]. unfold b2_outs in Hg. pose proof (qt_b _ _ Hi Hj) as Hq.
  destruct Hg as [<-|[<-|[]]]; [left|right]; apply th_In; try assumption; [rewrite ndQ|rewrite ndK]; assumption.
Qed.
Lemma sep2_not X i g : wft X -> disj X dQ -> disj X dK -> 0 <= i < ntiles X -> g = th X i ->
  ~ (In g (tile_handles dQ) \/ In g (tile_handles dK)).
Proof.
  intros HW A1 A2 Hi -> Hin. pose proof (th_In X i HW Hi) as Hx.
  destruct Hin as [H|H]; [apply (A1 _ Hx H)|apply (A2 _ Hx H)].
Qed.
Lemma xds_el s j l q x y : 0 <= j < gs -> 0 <= l < st -> 0 <= q < gs * st -> 0 <= x < gb * bt -> 0 <= y < gn * nt ->
  kds st h (fl (s (th K (j + gs * gc x y)))) (fl (s (th Q (q / st + gs * gc x y)))) (bl (s (th mask (j + gs * (q / st)))))
    (fl (s (th ms (q / st + gs * gc x y)))) (fl (s (th dA (q / st + gs * gc x y)))) (fl (s (th V (j + gs * gc x y))))
    (fl (s (th sp (q / st + gs * gc x y)))) l (q mod st) (cc x y) = xds s Q K V mask ms dA sp (j * st + l) q x y.
Proof.
  intros Hj Hl Hq Hx Hy. destruct (ediv gs st q Hst Hq) as (Q1 & Q2 & Q3).
  unfold kds, xds, xds_of. rewrite (kpr_el h st bt nt gs gb gn) by assumption.
  assert (E1 : zn (bl (s (th mask (j + gs * (q / st))))) (l + st * (q mod st)) = belem s mask [j * st + l; q])
    by (apply elM; assumption).
  assert (E2 : zn (fl (s (th sp (q / st + gs * gc x y)))) (q mod st + st * cc x y) = elem s sp [q; x; y])
    by (etransitivity; [apply (elS st bt nt gs gb gn); assumption|rewrite <- Q3; reflexivity]).
  assert (E3 : kdp st h (fl (s (th V (j + gs * gc x y)))) (fl (s (th dA (q / st + gs * gc x y)))) l (q mod st) (cc x y) = xdp s V dA (j * st + l) q x y).
  { unfold kdp, FlashRuns.xdp. f_equal. apply dot_ext; intros d Hd; unfold col.
    - apply (elX h st bt nt gs gb gn); assumption.
    - rewrite (elX h st bt nt gs gb gn) by assumption. rewrite <- Q3. reflexivity. }
  rewrite E1, E2, E3. reflexivity.
Qed.

Theorem bwd_second_runs s :
  stored KF s Q -> stored KF s dQ -> stored KF s K -> stored KF s dK -> stored KF s V -> stored KB s mask ->
  stored KF s ms -> stored KF s dA -> stored KF s tmp -> stored KF s grad -> stored KF s sp ->
  runs (flash_bwd_second Q dQ K dK V dV mask ms dA tmp grad sp) s (fun s' =>
    (forall d q x y, 0 <= d < h -> 0 <= q < gs * st -> 0 <= x < gb * bt -> 0 <= y < gn * nt ->
       elem s' dQ [d; q; x; y] = fold_left (fun v j =>
         gm o_one (o_mul (flash_scale h) (dot st (fun l => elem s K [d; j * st + l; x; y]) (fun l => xds s Q K V mask ms dA sp (j * st + l) q x y))) v)
         (zrange gs) (elem s dQ [d; q; x; y]) /\
       elem s' dK [d; q; x; y] = fold_left (fun v j =>
         gm o_one (o_mul (flash_scale h) (dot st (fun l => elem s Q [d; j * st + l; x; y]) (fun l => xds s Q K V mask ms dA sp q (j * st + l) x y))) v)
         (zrange gs) (elem s dK [d; q; x; y])) /\
    frame [dQ; dK] s s').
Proof.
  intros SQ' SdQ' SK' SdK' SV' SM' SS' SA' ST' SG' SP'.
  assert (Nm : ntiles mask = gs * gs) by (apply (nM st gs); assumption).
  assert (Ns : ntiles ms = N) by (apply (nP st bt nt gs gb gn); assumption).
  assert (Nt : ntiles tmp = gs * N) by (apply (nT st bt nt gs gb gn); assumption).
  assert (Ng : ntiles grad = gs * N) by (apply (nT st bt nt gs gb gn); assumption).
  assert (Nsp : ntiles sp = N) by (apply (nS st bt nt gs gb gn); assumption).
  pose proof HBT as HB.
  eapply runs_weaken; [apply (multi_runs zs b2_pre b2_outs b2_scr (fun p => MRW)
    (fun p => flash_bwd_dq_dk_cpu st h BT) b2_F)|].
  - rewrite bwd_second_submits. reflexivity.
  - auto.
  - intros p p' g Hp Hp' Hg Hg'. apply (b2_outs_In p' g Hp') in Hg'. apply zs_In in Hp as [Hi Hj].
    unfold b2_pre in Hg. pose proof (qt_b _ _ Hi Hj) as Hq. pose proof (mt_b _ _ Hi Hj) as Hm.
    cbv zeta in Hg. cbn [In] in Hg. revert Hg'.
    destruct EQ as (? & ? & _), EK as (? & ? & _), EV as (? & ? & _), EM as (? & ? & _), ES as (? & ? & _), EA as (? & ? & _).
    assert (disj sp dQ) by (apply disj_sym; assumption). assert (disj sp dK) by (apply disj_sym; assumption).
    destruct Hg as [E|[E|[E|[E|[E|[E|[E|[]]]]]]]]; symmetry in E.
    + apply (sep2_not K (fst p)); try assumption. rewrite nK. assumption.
    + apply (sep2_not Q (qt (fst p) (snd p))); try assumption. rewrite nQ. assumption.
    + apply (sep2_not mask (mt (fst p) (snd p))); try assumption. rewrite Nm. assumption.
    + apply (sep2_not ms (qt (fst p) (snd p))); try assumption. rewrite Ns. assumption.
    + apply (sep2_not dA (qt (fst p) (snd p))); try assumption. rewrite ndA. assumption.
    + apply (sep2_not V (fst p)); try assumption. rewrite nV. assumption.
    + apply (sep2_not sp (qt (fst p) (snd p))); try assumption. rewrite Nsp. assumption.
  - discriminate.
  - intros p g t b Hp Hg Ht Hb. apply zs_In in Hp as [Hi Hj]. pose proof (qt_b _ _ Hi Hj) as Hq. unfold b2_F. cbn [ty].
    rewrite zlen_ztab by nia. unfold b2_outs in Hg. destruct Hg as [<-|[<-|[]]].
    + rewrite SdQ' by (rewrite ndQ; assumption). rewrite (zX h st bt nt gs gb gn) by assumption. reflexivity.
    + rewrite SdK' by (rewrite ndK; assumption). rewrite (zX h st bt nt gs gb gn) by assumption. reflexivity.
  - intros p t v sc Hp Ht Hv Hsc. apply zs_In in Hp as [Hi Hj]. unfold b2_pre, b2_outs, b2_scr, b2_F in *.
    pose proof (qt_b _ _ Hi Hj) as Hq. pose proof (mt_b _ _ Hi Hj) as Hm. pose proof (tt4_b _ _ Hi Hj) as H4.
    set (i := fst p) in *. set (j := snd p) in *. cbv zeta in *.
    destruct (bufF s t K i Ht SK' ltac:(rewrite nK; assumption)) as (lk & Ek & Lk).
    destruct (bufF s t V i Ht SV' ltac:(rewrite nV; assumption)) as (lv & Ev & Lv).
    destruct (bufF s t Q (qt i j) Ht SQ' ltac:(rewrite nQ; assumption)) as (lq & Eq & Lq).
    destruct (bufF s t dA (qt i j) Ht SA' ltac:(rewrite ndA; assumption)) as (la & Ea & La).
    destruct (bufF s t ms (qt i j) Ht SS' ltac:(lia)) as (ls & Es & Ls).
    destruct (ty_BB _ _ (buf_at s t KB mask (mt i j) Ht SM' ltac:(lia))) as (lm & Em & Lm).
    destruct (bufF s v dK i Hv SdK' ltac:(rewrite ndK; assumption)) as (ldk & Edk & Ldk).
    destruct (bufF s v dQ (qt i j) Hv SdQ' ltac:(rewrite ndQ; assumption)) as (ldq & Edq & Ldq).
    destruct (bufF s t sp (qt i j) Ht SP' ltac:(lia)) as (lp & Ep & Lp).
    destruct sc as [|b1 [|b2 [|? ?]]]; cbn [map] in Hsc; [discriminate|discriminate| |discriminate].
    pose proof (ST' (tt4 i j) ltac:(lia)) as Ty1. pose proof (SG' (tt4 i j) ltac:(lia)) as Ty2.
    assert (Ha1 : ty b1 = ty (s (th tmp (tt4 i j)))) by congruence. assert (Ha2 : ty b2 = ty (s (th grad (tt4 i j)))) by congruence.
    rewrite Ty1 in Ha1. rewrite Ty2 in Ha2.
    destruct (ty_BF _ _ Ha1) as (l1 & -> & L1). destruct (ty_BF _ _ Ha2) as (l2 & -> & L2).
    rewrite (zX h st bt nt gs gb gn) in Lk, Lq, Lv, La, Ldk, Ldq by assumption.
    rewrite (zM st gs) in Lm by assumption. rewrite (zT st bt nt gs gb gn) in L1, L2 by assumption.
    rewrite (zP st bt nt gs gb gn) in Ls by assumption. rewrite (zS st bt nt gs gb gn) in Lp by assumption.
    cbn [map app]. rewrite Ek, Eq, Em, Ev, Es, Ea, Edk, Edq, Ep.
    destruct (flash_bwd_dq_dk_ok st h BT Hst Hh HB zz lk lq lm ls la lv lp ldq ldk l1 l2) as (t1 & t2 & E); try (unfold BT; assumption).
    exists [BF t1; BF t2]. rewrite E. split; [|reflexivity]. cbn [app fl]. rewrite Z.eqb_refl.
    rewrite eqb_th_ne by (rewrite ?ndQ, ?ndK; assumption).
    match goal with |- Ok [_; _; _; _; _; _; _; BF ?a; BF ?b; _; _] = Ok [_; _; _; _; _; _; _; BF ?c; BF ?d; _; _] =>
      assert (E1 : a = c); [|assert (E2 : b = d); [|rewrite E1, E2; reflexivity]] end;
    unfold tab3; apply ztab_ext; intros o Ho; destruct (cz3_inv h st BT o Hh Hst HB Ho) as (_ & _ & _ & C); rewrite C; reflexivity.
  - intros s' _ Hs'.
    assert (Hex : forall p, In p zs -> forall i, 0 <= i < N ->
      existsb (Z.eqb (th dQ i)) (b2_outs p) = (fst p / gs =? i / gs) && (snd p =? i mod gs) /\
      existsb (Z.eqb (th dK i)) (b2_outs p) = (fst p =? i) && true).
    { intros p Hp i Hi. apply zs_In in Hp as [Hi' Hj]. unfold b2_outs. pose proof (qt_b _ _ Hi' Hj) as Hq.
      assert (E1 : (th dQ i =? th dQ (qt (fst p) (snd p))) = (i =? qt (fst p) (snd p))) by (apply eqb_th; rewrite ?ndQ; assumption).
      assert (E2 : (th dK i =? th dK (fst p)) = (fst p =? i)) by (rewrite eqb_th by (rewrite ?ndK; assumption); apply Z.eqb_sym).
      assert (X1 : (th dQ i =? th dK (fst p)) = false) by (apply eqb_th_ne; rewrite ?ndQ, ?ndK; assumption).
      assert (X3 : (th dK i =? th dQ (qt (fst p) (snd p))) = false) by (apply eqb_th_ne; rewrite ?ndQ, ?ndK; try assumption; apply disj_sym; assumption).
      cbn [existsb]. rewrite E1, E2, X1, X3. rewrite ?orb_false_r, andb_true_r. cbn [orb]. split; [|reflexivity].
      unfold qt. destruct (Z.eqb_spec i (snd p + gs * (fst p / gs))) as [E|E].
      - destruct (mix_div gs (snd p) (fst p / gs) Hj) as [M1 M2]. rewrite <- E in M1, M2. rewrite M1, M2, !Z.eqb_refl. reflexivity.
      - symmetry. apply andb_false_iff. destruct (Z.eqb_spec (fst p / gs) (i / gs)) as [E4|]; [|auto]. right. apply Z.eqb_neq. intros E5.
        apply E. rewrite E4, E5. pose proof (Z.div_mod i gs) as D. clear - D Hgs. lia. }
    split.
    + intros d q x y Hd Hq Hx Hy. destruct (ediv gs st q Hst Hq) as (Q1 & Q2 & Q3). pose proof (gc_bound bt nt gb gn Hbt Hnt x y Hx Hy) as G.
      assert (Hi : 0 <= q / st + gs * gc x y < N) by (apply mix_bound; assumption).
      destruct (mix_div gs (q / st) (gc x y) Q1) as [M1 M2].
      pose proof (cc_bound bt nt gb gn Hbt Hnt x y Hx Hy) as Cb. fold BT in Cb.
      destruct (cz3 h st BT d (q mod st) (cc x y) Hd Q2 Cb) as (C0 & C1 & C2 & _).
      set (i := q / st + gs * gc x y) in *. split.
      * assert (Hin : inb (t_shape dQ) [d; q; x; y]) by (rewrite (proj1 SdQ); inbt).
        assert (Et : etile dQ [d; q; x; y] = i) by (apply (tX h st bt nt gs gb gn); assumption).
        rewrite (multi_elem zs b2_outs (fun p g b => b2_F p g (map s (b2_pre p)) b) (fun p o v => dq_val (map s (b2_pre p)) o v) dQ s s'); try assumption.
        -- rewrite Et. rewrite (filter_ext' _ (fun p => (fst p / gs =? i / gs) && (snd p =? i mod gs))); [|intros p Hp; apply Hex; assumption].
           unfold zs. rewrite (filter_prod_snd (fun a => a / gs =? i / gs)); [|apply NoDup_zrange|rewrite M2; apply zrange_In; assumption].
           rewrite M1, M2. unfold N. rewrite (filter_block gs (gb * gn) (gc x y)) by assumption. rewrite map_map.
           rewrite fold_left_map'. apply fold_left_ext. intros v j Hj. apply zrange_In in Hj.
           rewrite (oX h st bt nt gs gb gn) by assumption.
           unfold b2_pre. cbn [fst snd]. unfold dq_val, ds_val, pA, pK, pQ, pM, pS, pV, pP. cbn [map nth]. rewrite C0, C1, C2.
           destruct (mix_div gs j (gc x y) Hj) as [M5 M6]. unfold qt, mt. rewrite M5, M6.
           f_equal. f_equal. apply dot_ext; intros l Hl.
           ++ apply (elX h st bt nt gs gb gn); assumption.
           ++ apply xds_el; assumption.
        -- rewrite Et. intros p l Hp Ho Hl. apply zs_In in Hp as [Hi' _]. unfold b2_F. 
           rewrite eqb_th_ne by (rewrite ?ndQ, ?ndK; assumption). rewrite (zX h st bt nt gs gb gn) by assumption. reflexivity.
      * assert (Hin : inb (t_shape dK) [d; q; x; y]) by (rewrite (proj1 SdK); inbt).
        assert (Et : etile dK [d; q; x; y] = i) by (apply (tX h st bt nt gs gb gn); assumption).
        rewrite (multi_elem zs b2_outs (fun p g b => b2_F p g (map s (b2_pre p)) b) (fun p o v => dk_val (map s (b2_pre p)) o v) dK s s'); try assumption.
        -- rewrite Et. rewrite (filter_ext' _ (fun p => (fst p =? i) && true)); [|intros p Hp; apply Hex; assumption].
           unfold zs. rewrite (filter_prod_both (fun _ => true)); [|apply NoDup_zrange|apply zrange_In; assumption].
           rewrite filter_all by reflexivity. rewrite fold_left_map'. apply fold_left_ext. intros v j Hj. apply zrange_In in Hj.
           rewrite (oX h st bt nt gs gb gn) by assumption.
           unfold b2_pre. cbn [fst snd]. unfold dk_val, ds_val, pA, pK, pQ, pM, pS, pV, pP. cbn [map nth]. rewrite C0, C1, C2.
           unfold qt, mt. rewrite M1, M2.
           f_equal. f_equal. apply dot_ext; intros l Hl.
           ++ apply (elX h st bt nt gs gb gn); assumption.
           ++ assert (Hjl : 0 <= j * st + l < gs * st) by nia. destruct (edivj st j l Hst Hl) as [F1 F2].
              pose proof (xds_el s (q / st) (q mod st) (j * st + l) x y Q1 Q2 Hjl Hx Hy) as E.
              rewrite F1, F2 in E. rewrite <- Q3 in E. exact E.
        -- rewrite Et. intros p l Hp Ho Hl. apply existsb_In in Ho. rewrite (proj2 (Hex p Hp i Hi)) in Ho. apply andb_true_iff in Ho as [Ho _].
           apply Z.eqb_eq in Ho. unfold b2_F. rewrite Ho, Z.eqb_refl. rewrite (zX h st bt nt gs gb gn) by assumption. reflexivity.
    + intros g Hg. rewrite Hs'.
      assert (Hn : forall p, In p zs -> existsb (Z.eqb g) (b2_outs p) = false).
      { intros p Hp. apply existsb_nIn. intros H. apply (b2_outs_In p g Hp) in H.
        destruct H as [H|H]; [apply (Hg dQ)|apply (Hg dK)]; cbn [In]; auto. }
      apply (fold_left_none zs (fun p b => b2_F p g (map s (b2_pre p)) b)). assumption.
Qed.

(** ** Both cycles *)
Definition xsum (s : store T) (q x y : Z) : T :=
  fold_left (fun v j =>
    kres o_one o_one (ksum st (fun l => o_mul (xdp s V dA (j * st + l) q x y) (xpr s Q K mask ms (j * st + l) q x y))) v)
    (zrange gs) (elem s sp [q; x; y]).

Lemma sep_frame X : sep X -> forall t', In t' [dQ; dK; dV; sp] -> disj X t'.
Proof. intros (A1 & A2 & A3 & A4) t' [<-|[<-|[<-|[<-|[]]]]]; assumption. Qed.
Lemma xds_same s s1 k q x y : frame [dQ; dK; dV; sp] s s1 ->
  0 <= k < gs * st -> 0 <= q < gs * st -> 0 <= x < gb * bt -> 0 <= y < gn * nt -> elem s1 sp [q; x; y] = xsum s q x y ->
  xds s1 Q K V mask ms dA sp k q x y = xds_of s Q K V mask ms dA (xsum s q x y) k q x y.
Proof.
  intros F Hk Hq Hx Hy E. unfold xds. rewrite E. unfold xds_of, FlashRuns.xdp, FlashRuns.xpr, FlashRuns.xsc.
  assert (I4 : forall X d k', shX X -> 0 <= d < h -> 0 <= k' < gs * st -> inb (t_shape X) [d; k'; x; y]) by (intros X d k' HX Hd Hk'; rewrite (proj1 HX); inbt).
  assert (Im : inb (t_shape mask) [k; q]) by (rewrite (proj1 SM); inbt).
  assert (Eb : belem s1 mask [k; q] = belem s mask [k; q]).
  { unfold belem. rewrite F; [reflexivity|]. intros t' Ht' Hin. pose proof (sep_frame mask EM t' Ht') as D.
    apply (D (th mask (etile mask [k; q]))); [apply th_In; [assumption|apply etile_bound; assumption]|assumption]. }
  rewrite Eb. destruct (belem s mask [k; q]); [|reflexivity].
  assert (Ep : pelem s1 ms [q; x; y] = pelem s ms [q; x; y]).
  { unfold pelem. f_equal; (apply (frame_elem [dQ; dK; dV; sp]); [assumption|rewrite (proj1 SS); constructor; [lia|inbt]|apply sep_frame; assumption|assumption]). }
  rewrite Ep. f_equal.
  - f_equal. f_equal. apply dot_ext; intros d Hd; apply (frame_elem [dQ; dK; dV; sp]); auto; apply sep_frame; assumption.
  - f_equal. f_equal. apply dot_ext; intros d Hd; apply (frame_elem [dQ; dK; dV; sp]); auto; apply sep_frame; assumption.
Qed.

Theorem flash_backward_runs redux s :
  stored KF s Q -> stored KF s dQ -> stored KF s K -> stored KF s dK -> stored KF s V -> stored KF s dV -> stored KB s mask ->
  stored KF s ms -> stored KF s dA -> stored KF s tmp -> stored KF s grad -> stored KF s sp ->
  runs (flash_softmax_gemm_backward_async Q dQ K dK V dV mask ms dA tmp grad sp redux) s (fun s' =>
    (forall d q x y, 0 <= d < h -> 0 <= q < gs * st -> 0 <= x < gb * bt -> 0 <= y < gn * nt ->
       elem s' dQ [d; q; x; y] = fold_left (fun v j =>
         gm o_one (o_mul (flash_scale h) (dot st (fun l => elem s K [d; j * st + l; x; y])
           (fun l => xds_of s Q K V mask ms dA (xsum s q x y) (j * st + l) q x y))) v) (zrange gs) o_zero /\
       elem s' dK [d; q; x; y] = fold_left (fun v j =>
         gm o_one (o_mul (flash_scale h) (dot st (fun l => elem s Q [d; j * st + l; x; y])
           (fun l => xds_of s Q K V mask ms dA (xsum s (j * st + l) x y) q (j * st + l) x y))) v) (zrange gs) o_zero /\
       elem s' dV [d; q; x; y] = fold_left (fun v j =>
         gm o_one (o_mul o_one (dot st (fun l => elem s dA [d; j * st + l; x; y]) (fun l => xpr s Q K mask ms q (j * st + l) x y))) v)
         (zrange gs) o_zero) /\
    (forall q x y, 0 <= q < gs * st -> 0 <= x < gb * bt -> 0 <= y < gn * nt -> elem s' sp [q; x; y] = xsum s q x y) /\
    frame [dQ; dK; dV; sp] s s').
Proof.
  intros SQ' SdQ' SK' SdK' SV' SdV' SM' SS' SA' ST' SG' SP'.
  change (flash_softmax_gemm_backward_async Q dQ K dK V dV mask ms dA tmp grad sp redux)
    with (then_ (flash_bwd_first Q dQ K dK V dV mask ms dA tmp grad sp) (flash_bwd_second Q dQ K dK V dV mask ms dA tmp grad sp)).
  eapply runs_then; [apply bwd_first_runs; assumption|].
  intros s1 Ht (A1 & A2 & A3).
  assert (St : forall k X, stored k s X -> stored k s1 X) by (intros k X HX i Hi; rewrite Ht; apply HX; assumption).
  eapply runs_weaken; [apply bwd_second_runs; apply St; assumption|].
  intros s' _ (B1 & B2).
    assert (D1 : forall t', In t' [dQ; dK] -> disj dV t') by (intros t' [<-|[<-|[]]]; apply disj_sym; assumption).
    assert (D2 : forall t', In t' [dQ; dK] -> disj sp t') by (intros t' [<-|[<-|[]]]; apply disj_sym; assumption).
    assert (I4 : forall X d k' x y, shX X -> 0 <= d < h -> 0 <= k' < gs * st -> 0 <= x < gb * bt -> 0 <= y < gn * nt ->
      inb (t_shape X) [d; k'; x; y]) by (intros X d k' x y HX Hd Hk' Hx Hy; rewrite (proj1 HX); inbt).
    split; [|split].
    + intros d q x y Hd Hq Hx Hy. destruct (B1 d q x y Hd Hq Hx Hy) as [C1 C2]. destruct (A1 d q x y Hd Hq Hx Hy) as (C3 & C4 & C5).
      split; [|split].
      * rewrite C1, C3. apply fold_left_ext. intros v j Hj. apply zrange_In in Hj. f_equal. f_equal.
        apply dot_ext; intros l Hl; assert (Hjl : 0 <= j * st + l < gs * st) by nia.
        -- apply (frame_elem [dQ; dK; dV; sp]); auto. apply sep_frame; assumption.
        -- apply xds_same; try assumption. apply A2; assumption.
      * rewrite C2, C4. apply fold_left_ext. intros v j Hj. apply zrange_In in Hj. f_equal. f_equal.
        apply dot_ext; intros l Hl; assert (Hjl : 0 <= j * st + l < gs * st) by nia.
        -- apply (frame_elem [dQ; dK; dV; sp]); auto. apply sep_frame; assumption.
        -- apply xds_same; try assumption. apply A2; assumption.
      * rewrite (frame_elem [dQ; dK] s1 s') by auto. exact C5.
    + intros q x y Hq Hx Hy. rewrite (frame_elem [dQ; dK] s1 s'); [apply A2; assumption|assumption|rewrite (proj1 SP); inbt|assumption|assumption].
    + intros g Hg. rewrite B2; [|intros t' Ht'; apply Hg; cbn [In] in *; tauto]. apply A3. assumption.
Qed.
End R.
