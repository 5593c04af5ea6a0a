(** * The cross-entropy loss: total_sum_accum over the extended reals, and the whole calculation *)
From Coq Require Import Reals Lra Lia.
From Verif Require Import Base Spec Geometry Traits TraitsProofs Runtime Ops TensorSem ElemGeneric OneOut
  KernelsElem ElemOps ElemProofs Axis AccRuns Loops SliceOps SliceGeo SliceProofs SliceReduce RealOps RSum Concrete PropElem PropElemR
  PropSlice SoftmaxOps PairGeo SoftmaxProofs SoftmaxRuns Sequence XReals SoftmaxScalar PropSoftmax Serial NdRuns
  KeepRuns CommRuns AnyRuns LossOps LossProofs LossRuns TotalSum Serial2.
Local Open Scope R_scope.

(** ** total_sum_accum on finite data *)
Lemma ts_X no nl (lse src : list XR) labels (a b : Z -> R) : (0 <= no)%Z ->
  (forall i, (0 <= i < no)%Z -> zn lse i = Fin (a i) /\ zn src (zn labels i + nl * i)%Z = Fin (b i)) ->
  ts_sum no nl lse src labels = (Fin (Rsum no (fun i => a i - b i)), Fin 0).
Proof.
  intros Hn. pattern no. apply natlike_ind; [reflexivity| |assumption]. intros k Hk IH H. unfold Z.succ, ts_sum.
  rewrite zrange_succ by assumption. rewrite fold_left_app. fold (ts_sum k nl lse src labels). rewrite IH by (intros; apply H; lia).
  rewrite Rsum_succ by assumption. cbn [fold_left]. destruct (H k) as [-> ->]; [lia|].
  unfold kahan. cbn [o_add o_sub o_neg o_mul Xops x_add x_sub x_neg fst snd]. f_equal; f_equal; lra.
Qed.

Lemma x_add_comm3 v x y : x_add (x_add v (Fin x)) (Fin y) = x_add (x_add v (Fin y)) (Fin x).
Proof. destruct v; cbn; try reflexivity. f_equal. lra. Qed.
Lemma ts_val_X a x v : ts_val (Fin a) (Fin x, Fin 0) v = x_add v (Fin (a * x)).
Proof. unfold ts_val. cbn [o_add o_sub o_mul Xops fst snd x_mul]. destruct v; cbn; try reflexivity. f_equal. lra. Qed.
Lemma x_add_assoc2 v x y : x_add (x_add v (Fin x)) (Fin y) = x_add v (Fin (x + y)).
Proof. destruct v; cbn; try reflexivity. f_equal. lra. Qed.

Section TS.
Variables (lse src labels val : tensor).
Hypothesis (H1 : wft lse) (H2 : wft src) (H3 : wft labels) (H4 : wft val).

Theorem total_sum_runs_X (alpha : R) s (a b : list Z -> R) : total_match lse src labels val ->
  disj lse val -> disj src val -> disj labels val ->
  stored KF s lse -> stored KF s src -> stored KI s labels -> stored KF s val ->
  (forall idx, inb (t_shape labels) idx -> (0 <= ielem s labels idx < zn (t_shape src) 0)%Z /\
     elem s lse idx = Fin (a idx) /\ elem s src (ielem s labels idx :: idx) = Fin (b idx)) ->
  runs_comm [labels; lse; src] (total_sum_accum_async (Fin alpha) lse src labels val) s (fun s' =>
    elem s' val [] = x_add (elem s val []) (Fin (alpha * Rsuml (all_idx (t_shape labels)) (fun idx => a idx - b idx))) /\
    frame [val] s s').
Proof.
  intros Hm D1 D2 D3 S1 S2 S3 S4 Hdat. pose proof Hm as (E1 & E2 & Hl & Ev). destruct (val_one val H4 Ev) as (Eb & En & Ez).
  assert (Hlab : forall idx, inb (t_shape labels) idx -> (0 <= ielem s labels idx < zn (t_shape src) 0)%Z) by (intros idx Hi; apply Hdat; assumption).
  destruct (lab_n labels src H2 Hl) as (Hn & Esh & _). set (n := zn (t_shape src) 0) in *.
  set (X := fun i : Z => Rsum (tsz labels i) (fun p => a (eidx labels i p) - b (eidx labels i p))).
  set (F := fun (i : Z) (_ : list (buf XR)) (d : list XR) => [x_add (zn d 0%Z) (Fin (alpha * X i))]).
  set (pre := fun i => [th lse i; th src i; th labels i]).
  assert (Hi1 : forall i, (0 <= i < ntiles labels)%Z -> (0 <= i < ntiles lse)%Z) by (intros i Hi; rewrite (ntiles_ext lse labels) by assumption; assumption).
  assert (Hi2 : forall i, (0 <= i < ntiles labels)%Z -> (0 <= i < ntiles src)%Z) by (intros i Hi; rewrite (lab_nt labels src) by assumption; assumption).
  assert (Hv : (0 <= 0 < ntiles val)%Z) by lia.
  eapply comm_weaken; [apply (one_comm [labels; lse; src] s (th val 0) 1 (zrange (ntiles labels)) MCOMMUTE pre
    (fun i => total_sum_accum_cpu (Fin alpha) n (tsz labels i)) F)|].
  - auto.
  - rewrite S4 by lia. rewrite Ez. reflexivity.
  - intros i Hi Hin. apply zrange_In in Hi. unfold pre in Hin.
    destruct Hin as [E|[E|[E|[]]]]; symmetry in E; revert E.
    + intros E. apply (th_neq lse val i 0); auto.
    + intros E. apply (th_neq src val i 0); auto.
    + intros E. apply (th_neq labels val i 0); auto.
  - intros t [<-|[<-|[<-|[]]]] Hin; [apply (D3 (th val 0))|apply (D1 (th val 0))|apply (D2 (th val 0))]; try assumption; apply th_In; assumption.
  - reflexivity.
  - intros i st d Hi Hk Hd. apply zrange_In in Hi.
    assert (Ea' : st (th lse i) = s (th lse i)) by (apply (proj2 Hk lse); [right; left; reflexivity|apply th_In; auto]).
    assert (Eb' : st (th src i) = s (th src i)) by (apply (proj2 Hk src); [right; right; left; reflexivity|apply th_In; auto]).
    assert (Es : st (th labels i) = s (th labels i)) by (apply (proj2 Hk labels); [left; reflexivity|apply th_In; assumption]).
    destruct (ty_BF (s (th lse i)) (tsz lse i)) as (x & Ex & Lx); [apply S1; auto|].
    destruct (ty_BF (s (th src i)) (tsz src i)) as (y & Ey & Ly); [apply S2; auto|].
    destruct (ty_BI (s (th labels i)) (tsz labels i)) as (c & Ec & Lc); [apply S3; assumption|].
    unfold pre, F. cbn [map app nth]. rewrite Ea', Eb', Es, Ex, Ey, Ec. cbn [total_sum_accum_cpu].
    assert (exists v, d = [v]) as (v & ->).
    { destruct d as [|v [|? l]]; [rewrite zlen_nil in Hd; lia|eauto|]. rewrite !zlen_cons in Hd. pose proof (zlen_nonneg l). lia. }
    rewrite (tsz_ext lse labels) in Lx by assumption. rewrite (lab_tsz labels src) in Ly by assumption. fold n in Ly.
    pose proof (tsz_pos labels i H3 Hi) as Hp.
    rewrite k_total_sum_ok; [|assumption|lia|assumption|assumption|assumption|].
    + bnd. rewrite (ts_X (tsz labels i) n x y c (fun p => a (eidx labels i p)) (fun p => b (eidx labels i p))).
      * rewrite ts_val_X. reflexivity.
      * lia.
      * intros p Hp'. destruct (eidx_spec labels i p H3 Hi Hp') as (I1 & I2 & I3). destruct (Hdat _ I1) as (Hr & A1 & A2).
        rewrite <- A1, <- A2. unfold elem. rewrite (lab_etile labels src), (lab_eoff labels src) by assumption.
        rewrite (etile_ext lse labels), (eoff_ext lse labels) by assumption. unfold ielem. rewrite I2, I3, Ex, Ey, Ec. cbn [fl il]. fold n. auto.
    + intros p Hp'. pose proof (lab_range labels H3 s n i p Hlab Hi Hp') as Q. rewrite Ec in Q. assumption.
  - intros i j st d Hi Hj Hk Hd. unfold F. rewrite !zn_cons0. f_equal. apply x_add_comm3.
  - rewrite total_submits by assumption. reflexivity.
  - intros s' Hk [Hh Hf]. split.
    + unfold elem at 1. assert (Et : etile val [] = 0%Z) by (unfold etile; rewrite Ev; reflexivity).
      assert (Eo : eoff val [] = 0%Z) by (unfold eoff; rewrite Ev; reflexivity). rewrite Et, Eo, Hh. cbn [fl].
      unfold elem at 1. rewrite Et, Eo.
      rewrite <- (Rsum_by_tiles labels (fun idx => a idx - b idx)) by assumption.
      assert (G : forall g (d : list XR), (0 <= g)%Z ->
        zn (fold_left (fun d x => F x (map s (pre x)) d) (zrange g) d) 0%Z = x_add (zn d 0%Z) (Fin (alpha * Rsum g X))).
      { intros g d Hg. pattern g. apply natlike_ind; [| |assumption].
        - rewrite Rsum_neg by lia. rewrite (zrange_neg 0) by lia. cbn [fold_left]. destruct (zn d 0); cbn; try reflexivity. f_equal. lra.
        - intros k Hk' IH. unfold Z.succ. rewrite zrange_succ by assumption. rewrite fold_left_app. cbn [fold_left].
          unfold F at 1. rewrite zn_cons0. rewrite IH. rewrite Rsum_succ by assumption. rewrite x_add_assoc2. f_equal. f_equal. lra. }
      rewrite G; [reflexivity|]. pose proof (ntiles_pos labels H3). lia.
    + intros h Hh'. apply Hf. intros ->. apply (Hh' val); [left; reflexivity|]. apply th_In; assumption.
Qed.
End TS.

(** ** Specification of the loss and its gradient *)
Section Spec.
Variables (a : R) (n : Z) (sh : list Z) (lab : list Z -> Z).
Definition ce_loss (v : list Z -> R) : R :=
  a * Rsuml (all_idx sh) (fun idx => ln (Rsum n (fun k => exp (v (k :: idx)))) - v (lab idx :: idx)).
Definition ce_grad (v : list Z -> R) (l : Z) (idx : list Z) : R :=
  a * (exp (v (l :: idx)) / Rsum n (fun k => exp (v (k :: idx))) - (if (lab idx =? l)%Z then 1 else 0)).
End Spec.

(** The entries of v with that at position p replaced by t. *)
Definition at_ (v : list Z -> R) (p : list Z) (t : R) : list Z -> R :=
  fun i => if list_eq_dec Z.eq_dec i p then t else v i.

Lemma at_same v p t : at_ v p t p = t.
Proof. unfold at_. destruct (list_eq_dec _ p p); [reflexivity|contradiction]. Qed.
Lemma at_other v p t i : i <> p -> at_ v p t i = v i.
Proof. intros H. unfold at_. destruct (list_eq_dec _ i p); [contradiction|reflexivity]. Qed.
Lemma at_id v p i : at_ v p (v p) i = v i.
Proof. unfold at_. destruct (list_eq_dec _ i p); [subst|]; reflexivity. Qed.

Lemma d_sum {A} (l : list A) (f : A -> R -> R) t0 (d : A -> R) :
  (forall x, In x l -> derivable_pt_lim (f x) t0 (d x)) ->
  derivable_pt_lim (fun t => Rsuml l (fun x => f x t)) t0 (Rsuml l d).
Proof.
  induction l as [|x l IH]; intros H.
  - apply (derivable_pt_lim_const 0 t0).
  - apply (derivable_pt_lim_plus (f x) (fun t => Rsuml l (fun x => f x t))); [apply H; left; reflexivity|].
    apply IH. intros y Hy. apply H. right. assumption.
Qed.
Lemma Rsuml_one {A} (dec : forall x y : A, {x = y} + {x <> y}) l x0 (f : A -> R) : NoDup l -> In x0 l ->
  Rsuml l (fun x => if dec x x0 then f x else 0) = f x0.
Proof.
  induction l as [|x l IH]; intros Hn Hin; [destruct Hin|]. inversion Hn; subst. rewrite Rsuml_cons. destruct (dec x x0) as [->|Hx].
  - rewrite Rsuml_0; [lra|]. intros y Hy. destruct (dec y x0); [subst; contradiction|reflexivity].
  - rewrite IH; [lra|assumption|]. destruct Hin; [contradiction|assumption].
Qed.
Lemma d_ext f g t0 d : (forall t, f t = g t) -> derivable_pt_lim f t0 d -> derivable_pt_lim g t0 d.
Proof. intros H Hf eps He. destruct (Hf eps He) as (de & Hd). exists de. intros h H1 H2. rewrite <- !H. apply Hd; assumption. Qed.

Lemma sumexp_pos' n (f : Z -> R) : (0 < n)%Z -> 0 < Rsum n (fun k => exp (f k)).
Proof. intros H. apply Rsuml_pos; [|intros; apply exp_pos]. intros E. assert (Hz : In 0%Z (zrange n)) by (apply zrange_In; lia). rewrite E in Hz. destruct Hz. Qed.

(** The gradient is the exact derivative of the loss in each entry of the input. *)
Theorem ce_grad_correct a n sh lab v l idx : (0 <= l < n)%Z -> pos sh -> inb sh idx ->
  derivable_pt_lim (fun t => ce_loss a n sh lab (at_ v (l :: idx) t)) (v (l :: idx)) (ce_grad a n lab v l idx).
Proof.
  intros Hl Hsh Hi. set (p := l :: idx). set (t0 := v p).
  set (S := fun i => Rsum n (fun k => exp (v (k :: i)))).
  assert (HS : 0 < S idx) by (apply sumexp_pos'; lia).
  set (D := fun i => exp (v (l :: i)) / S i - (if (lab i =? l)%Z then 1 else 0)).
  set (d := fun i => if list_eq_dec Z.eq_dec i idx then D i else 0).
  assert (G : derivable_pt_lim (fun t => Rsuml (all_idx sh) (fun i =>
     ln (Rsum n (fun k => exp (at_ v p t (k :: i)))) - at_ v p t (lab i :: i))) t0 (Rsuml (all_idx sh) d)).
  { apply d_sum. intros i Hi'. unfold d. destruct (list_eq_dec Z.eq_dec i idx) as [->|Hne].
    - set (e := fun k => if Z.eq_dec k l then exp (v (k :: idx)) else 0).
      assert (De : derivable_pt_lim (fun t => Rsum n (fun k => exp (at_ v p t (k :: idx)))) t0 (Rsum n e)).
      { apply d_sum. intros k Hk. unfold e. destruct (Z.eq_dec k l) as [->|Hkl].
        - apply (d_ext exp); [intros t; fold p; rewrite at_same; reflexivity|]. fold p. apply derivable_pt_lim_exp.
        - apply (d_ext (fun _ => exp (v (k :: idx)))); [|apply (derivable_pt_lim_const (exp (v (k :: idx))) t0)].
          intros t. rewrite at_other; [reflexivity|]. unfold p. intros E. inversion E. contradiction. }
      assert (Ee : Rsum n e = exp (v p)).
      { unfold Rsum, e. rewrite (Rsuml_one Z.eq_dec (zrange n) l (fun k => exp (v (k :: idx)))); [reflexivity|apply NoDup_zrange|apply zrange_In; assumption]. }
      assert (E0 : Rsum n (fun k => exp (at_ v p t0 (k :: idx))) = S idx).
      { apply Rsum_ext. intros k _. unfold t0. rewrite at_id. reflexivity. }
      assert (Dl : derivable_pt_lim (fun t => at_ v p t (lab idx :: idx)) t0 (if (lab idx =? l)%Z then 1 else 0)).
      { destruct (Z.eqb_spec (lab idx) l) as [E|E].
        - apply (d_ext (fun t => t)); [|apply (derivable_pt_lim_id t0)]. intros t. rewrite E. fold p. rewrite at_same. reflexivity.
        - apply (d_ext (fun _ => v (lab idx :: idx))); [|apply (derivable_pt_lim_const (v (lab idx :: idx)) t0)].
          intros t. rewrite at_other; [reflexivity|]. unfold p. intros E'. inversion E'. contradiction. }
      unfold D. apply (derivable_pt_lim_minus (fun t => ln (Rsum n (fun k => exp (at_ v p t (k :: idx))))) (fun t => at_ v p t (lab idx :: idx))); [|exact Dl].
      replace (exp (v (l :: idx)) / S idx) with (/ S idx * Rsum n e) by (rewrite Ee; unfold p, Rdiv; ring).
      apply (derivable_pt_lim_comp (fun t => Rsum n (fun k => exp (at_ v p t (k :: idx)))) ln); [exact De|].
      rewrite E0. apply derivable_pt_lim_ln. assumption.
    - apply (d_ext (fun _ => ln (S i) - v (lab i :: i))); [|apply (derivable_pt_lim_const (ln (S i) - v (lab i :: i)) t0)].
      intros t. rewrite at_other by (unfold p; intros E; inversion E; contradiction). f_equal. f_equal. apply Rsum_ext.
      intros k _. rewrite at_other by (unfold p; intros E; inversion E; contradiction). reflexivity. }
  unfold d in G. rewrite (Rsuml_one (list_eq_dec Z.eq_dec) (all_idx sh) idx D) in G; [|apply NoDup_all_idx; assumption|apply all_idx_In; assumption].
  unfold ce_grad, ce_loss. fold (S idx). apply (derivable_pt_lim_scal _ a). exact G.
Qed.

(** ** The calculation of wrappers/python/nntile/loss/crossentropy.py:83-94 (calc_async): clear, maxsumexp,
    logsumexp, total_sum_accum, softmax, subtract_indexed_outputs (redux off) *)
Definition crossentropy_calc (a : XR) (src labels ms lse val grad : tensor) : res (list (task XR)) :=
  then_ (then_ (then_ (then_ (then_ (clear_async ms) (maxsumexp_async src ms 0 false)) (logsumexp_async ms lse))
    (total_sum_accum_async a lse src labels val)) (softmax_async ms src a grad 0)) (subtract_indexed_outputs_async a labels grad).

(** The shapes of generate_simple (crossentropy.py:48-68): logits of shape n :: sh, not tiled along the first axis. *)
Record ce_match (src labels ms lse val grad : tensor) (n : Z) (sh : list Z) : Prop := {
  cm_src : t_shape src = n :: sh /\ t_base src = n :: t_base labels;
  cm_labels : t_shape labels = sh;
  cm_ms : t_shape ms = 2%Z :: sh /\ t_base ms = 2%Z :: t_base labels;
  cm_lse : t_shape lse = sh /\ t_base lse = t_base labels;
  cm_val : t_shape val = [];
  cm_grad : t_shape grad = t_shape src /\ t_base grad = t_base src
}.

Lemma frame_same ts (s s' : store XR) t : frame ts s s' -> (forall t', In t' ts -> disj t t') -> forall h, In h (tile_handles t) -> s' h = s h.
Proof. intros Hf Hd h Hh. apply Hf. intros t' Ht'. intros H. apply (Hd t' Ht' h); assumption. Qed.
Lemma frame_ielem ts (s s' : store XR) t idx : wft t -> inb (t_shape t) idx -> (forall t', In t' ts -> disj t t') -> frame ts s s' ->
  ielem s' t idx = ielem s t idx.
Proof.
  intros Ht Hi Hd Hf. unfold ielem. rewrite (frame_same ts s s' t Hf Hd); [reflexivity|]. apply th_In; [assumption|apply etile_bound; assumption].
Qed.

Section Calc.
Variables (src labels ms lse val grad : tensor) (n : Z) (sh : list Z).
Hypothesis (W1 : wf_tensor src) (W2 : wf_tensor labels) (W3 : wf_tensor ms) (W4 : wf_tensor lse) (W5 : wf_tensor val) (W6 : wf_tensor grad).
Hypothesis HM : ce_match src labels ms lse val grad n sh.
Hypothesis HD : ForallOrdPairs disj [src; labels; ms; lse; val; grad].

Lemma ce_disj : disj src ms /\ disj src lse /\ disj src val /\ disj src grad /\ disj labels ms /\ disj labels lse /\ disj labels val /\
  disj labels grad /\ disj ms lse /\ disj ms val /\ disj ms grad /\ disj lse val /\ disj val grad.
Proof.
  repeat match goal with H : ForallOrdPairs _ (_ :: _) |- _ => inversion H; clear H; subst end.
  repeat match goal with H : Forall _ (_ :: _) |- _ => inversion H; clear H; subst end. repeat split; assumption.
Qed.

Theorem crossentropy_acc (a : R) (s : store XR) (v : list Z -> R) (L0 : R) :
  stored KF s src -> stored KI s labels -> stored KF s ms -> stored KF s lse -> stored KF s val -> stored KF s grad ->
  holds s src v -> elem s val [] = Fin L0 ->
  (forall idx, inb sh idx -> (0 <= ielem s labels idx < n)%Z) ->
  runs_acc (crossentropy_calc (Fin a) src labels ms lse val grad) s (fun s' =>
    elem s' val [] = Fin (L0 + ce_loss a n sh (ielem s labels) v) /\
    (forall l idx, inb (n :: sh) (l :: idx) -> elem s' grad (l :: idx) = Fin (ce_grad a n (ielem s labels) v l idx)) /\
    frame [ms; lse; val; grad] s s').
Proof.
  intros S1 S2 S3 S4 S5 S6 Hv HL Hlab. destruct HM as [[M1 M1'] M2 [M3 M3'] [M4 M4'] M5 [M6 M6']].
  destruct ce_disj as (D1 & D2 & D3 & D4 & D5 & D6 & D7 & D8 & D9 & D10 & D11 & D12 & D13).
  pose proof (wf_wft _ W1) as V1. pose proof (wf_wft _ W2) as V2. pose proof (wf_wft _ W3) as V3.
  pose proof (wf_wft _ W4) as V4. pose proof (wf_wft _ W5) as V5. pose proof (wf_wft _ W6) as V6.
  assert (Hp : pair_match src ms 0).
  { unfold pair_match. rewrite M1, M1', M3, M3', zlen_cons. pose proof (zlen_nonneg sh). split; [lia|]. split; reflexivity. }
  assert (Hpg : pair_match grad ms 0) by (eapply pair_match_ext; [symmetry; exact M6|symmetry; exact M6'|exact Hp]).
  assert (Hlm : lse_match ms lse) by (unfold lse_match; rewrite M3, M3', M4, M4'; auto).
  assert (Htm : total_match lse src labels val).
  { unfold total_match, labels_match. rewrite M4, M4', M2, M5. split; [reflexivity|]. split; [reflexivity|]. split; [|reflexivity]. exists n. rewrite M1, M1'. auto. }
  assert (Hgm : labels_match labels grad).
  { exists n. rewrite M6, M6', M1, M1', M2. auto. }
  assert (Hn : (0 < n)%Z).
  { pose proof (wf_ps _ V1) as P. rewrite M1 in P. inversion P; assumption. }
  assert (Hsc : scores s src) by (intros idx Hi; rewrite (Hv idx Hi); exact I).
  assert (Hsh : t_shape labels = sh) by assumption.
  assert (Eax : forall idx, inb sh idx -> axis_vals s src 0 idx = map (fun k => Fin (v (k :: idx))) (zrange n)).
  { intros idx Hi. unfold axis_vals. rewrite M1. change (zn (n :: sh) 0) with n. apply map_ext_in. intros k Hk. apply zrange_In in Hk.
    change (ins 0 k idx) with (k :: idx). apply Hv. rewrite M1. constructor; assumption. }
  assert (Ese : forall idx, inb sh idx -> sumexp (axis_vals s src 0 idx) = Rsum n (fun k => exp (v (k :: idx)))).
  { intros idx Hi. rewrite Eax by assumption. unfold sumexp. rewrite Rsuml_map. apply Rsuml_ext. intros k _. cbn [expm]. f_equal. lra. }
  unfold crossentropy_calc.
  set (P5 := fun s5 : store XR => elem s5 val [] = Fin (L0 + ce_loss a n sh (ielem s labels) v) /\
    (forall l idx, inb (n :: sh) (l :: idx) -> elem s5 grad (l :: idx) = softmax_val a (axis_vals s src 0 idx) (Fin (v (l :: idx)))) /\
    frame [ms; lse; val; grad] s s5).
  apply acc_then with (P := P5).
  - (* up to softmax *)
    set (P3 := fun s3 : store XR => (forall idx, inb (del 0 (t_shape src)) idx -> rep (pelem s3 ms idx) (axis_vals s src 0 idx)) /\
      elem s3 val [] = Fin (L0 + ce_loss a n sh (ielem s labels) v) /\ frame [ms; lse; val] s s3).
    eapply acc_then with (P := P3).
    + set (P2 := fun s2 : store XR => (forall idx, inb (del 0 (t_shape src)) idx -> rep (pelem s2 ms idx) (axis_vals s src 0 idx)) /\
        (forall idx, inb sh idx -> elem s2 lse idx = Fin (ln (Rsum n (fun k => exp (v (k :: idx)))))) /\ frame [ms; lse] s s2).
      eapply acc_then with (P := P2).
      * apply nd_acc, runs_runs_nd. eapply runs_then; [apply C21_maxsumexp_fresh; assumption|]. intros s1 I1 [R1 F1].
        eapply runs_weaken; [apply logsumexp_runs; try assumption; eapply tinv_stored; eassumption|].
        intros s2 _ [Q1 Q2]. unfold P2. split; [|split].
        -- intros idx Hi. destruct (R1 idx Hi) as [Rp _]. unfold pelem in *.
           destruct (pelem_inb ms src 0 idx Hp Hi) as [B1 B2].
           rewrite !(frame_elem [lse] s1 s2) by (assumption || (intros t [<-|[]]; assumption)). assumption.
        -- intros idx Hi. rewrite Q1 by (rewrite M4; assumption).
           assert (Hi' : inb (del 0 (t_shape src)) idx) by (rewrite M1; exact Hi).
           destruct (R1 idx Hi') as [Rp Rz]. change (elem s1 ms (0%Z :: idx)) with (fst (pelem s1 ms idx)). change (elem s1 ms (1%Z :: idx)) with (snd (pelem s1 ms idx)).
           change (x_add (fst (pelem s1 ms idx)) (x_log (snd (pelem s1 ms idx))) = Fin (ln (Rsum n (fun k => exp (v (k :: idx)))))).
           rewrite (lse_val _ (axis_vals s src 0 idx)); [|assumption| |intros Hmk; rewrite Rz by assumption; reflexivity].
           ++ rewrite Ese by assumption. apply x_log_fin. apply (sumexp_pos' n (fun k => v (k :: idx))). assumption.
           ++ rewrite Eax by assumption. apply Forall_forall. intros x Hx. apply in_map_iff in Hx as (k & <- & _). exact I.
        -- eapply frame_trans in Q2; [|exact F1]. exact Q2.
      * intros s2 I2 (R2 & L2 & F2).
        eapply acc_weaken; [apply any_acc; [|eapply comm_any; [|apply (total_sum_runs_X lse src labels val V4 V1 V2 V5 a s2
            (fun idx => ln (Rsum n (fun k => exp (v (k :: idx))))) (fun idx => v (ielem s labels idx :: idx)) Htm)]; try assumption; try (eapply tinv_stored; eassumption)]|].
        -- intros ts E. rewrite total_submits in E by assumption. inversion E. apply Forall_forall. intros t Ht. apply in_map_iff in Ht as (i & <- & Hi). apply zrange_In in Hi. right.
           do 7 eexists. split; [reflexivity|]. destruct (val_one val V5 M5) as (_ & En & _).
           assert (Hv0 : (0 <= 0 < ntiles val)%Z) by lia.
           intros [Eq|[Eq|[Eq|[]]]]; revert Eq; [apply (th_neq lse val i 0)|apply (th_neq src val i 0)|apply (th_neq labels val i 0)]; try assumption;
             [rewrite (ntiles_ext lse labels) by (rewrite ?M2; assumption); assumption|rewrite (lab_nt labels src V1 (proj1 (proj2 (proj2 Htm)))); assumption].
        -- intros ts E. rewrite total_submits in E by assumption. inversion E. apply Forall_forall. intros t Ht. apply in_map_iff in Ht as (i & <- & _). apply total_sum_okt.
        -- intros idx Hi. rewrite M2 in Hi. specialize (Hlab idx Hi).
           rewrite (frame_ielem [ms; lse] s s2 labels) by (rewrite ?M2; assumption || (intros t [<-|[<-|[]]]; assumption)).
           rewrite M1. change (zn (n :: sh) 0) with n. split; [assumption|]. split; [apply L2; assumption|].
           rewrite (frame_elem [ms; lse] s s2) by (first [assumption | rewrite M1; constructor; assumption; assumption | rewrite M1; constructor; assumption | intros t [<-|[<-|[]]]; assumption]).
           apply Hv. rewrite M1. constructor; assumption.
        -- intros s3 _ [Q1 Q2]. unfold P3. split; [|split].
           ++ intros idx Hi. pose proof (R2 idx Hi) as Rp. unfold pelem in *.
              destruct (pelem_inb ms src 0 idx Hp Hi) as [B1 B2].
              rewrite !(frame_elem [val] s2 s3) by (assumption || (intros t [<-|[]]; assumption)). assumption.
           ++ rewrite Q1. rewrite (frame_elem [ms; lse] s s2) by (first [assumption | rewrite M5; constructor; assumption | rewrite M5; constructor | intros t [<-|[<-|[]]]; apply disj_sym; assumption]).
              rewrite HL, M2. reflexivity.
           ++ eapply frame_trans in Q2; [|exact F2]. exact Q2.
    + intros s3 I3 (R3 & L3 & F3). apply nd_acc, runs_runs_nd.
      eapply runs_weaken; [apply (softmax_runs ms grad 0 V3 V6 src V1); try assumption; try (eapply tinv_stored; eassumption); symmetry; assumption|].
      intros s5 _ [Q1 Q2]. unfold P5. split; [|split].
      * rewrite (frame_elem [grad] s3 s5) by (first [assumption | rewrite M5; constructor; assumption | rewrite M5; constructor | intros t [<-|[]]; assumption]). assumption.
      * intros l idx Hi. rewrite Q1 by (rewrite M6, M1; assumption). change (del 0 (l :: idx)) with idx.
        assert (Hi' : inb (t_shape src) (l :: idx)) by (rewrite M1; assumption).
        rewrite (frame_elem [ms; lse; val] s s3) by (try assumption; intros t [<-|[<-|[<-|[]]]]; assumption).
        rewrite (Hv _ Hi'). inversion Hi as [|? ? ? ? Hl Hx]; subst.
        apply smax_val; [apply R3; rewrite M1; exact Hx| |exact I]. rewrite Eax by exact Hx.
        apply in_map_iff. exists l. split; [reflexivity|apply zrange_In; assumption].
      * eapply frame_trans in Q2; [|exact F3]. exact Q2.
  - intros s5 I5 (L5 & G5 & F5).
    assert (Elab : forall idx, inb sh idx -> ielem s5 labels idx = ielem s labels idx).
    { intros idx Hi. apply (frame_ielem [ms; lse; val; grad]); [assumption|rewrite M2; assumption| |assumption].
      intros t [<-|[<-|[<-|[<-|[]]]]]; assumption. }
    apply nd_acc. eapply nd_weaken; [eapply keep_nd; [|apply (subtract_runs labels grad V2 V6 (Fin a) s5)]; try assumption; try (eapply tinv_stored; eassumption)|].
    + intros ts E. rewrite subtract_submits in E by assumption. inversion E. apply Forall_forall. intros t Ht. apply in_map_iff in Ht as (i & <- & _). apply subtract_okt.
    + intros idx Hi. rewrite M2 in Hi. rewrite Elab by assumption. rewrite M6, M1. change (zn (n :: sh) 0) with n. apply Hlab. assumption.
    + intros s' _ [Q1 Q2]. split; [|split].
      * rewrite (frame_elem [grad] s5 s') by (first [assumption | rewrite M5; constructor; assumption | rewrite M5; constructor | intros t [<-|[]]; assumption]). assumption.
      * intros l idx Hi. rewrite Q1 by (rewrite M6, M1; assumption). inversion Hi as [|? ? ? ? Hl Hx]; subst. rewrite Elab by exact Hx.
        rewrite G5 by assumption. cbn [softmax_val]. rewrite Ese by exact Hx. unfold ce_grad.
        destruct (_ =? l)%Z; cbn [o_sub Xops x_sub]; f_equal; ring.
      * eapply frame_trans in Q2; [|exact F5]. eapply frame_weaken; [|exact Q2]. intros t Ht. apply in_app_or in Ht as [Ht|[<-|[]]]; [assumption|]. right. right. right. left. reflexivity.
Qed.
Theorem crossentropy_runs (a : R) (s : store XR) (v : list Z -> R) (L0 : R) :
  stored KF s src -> stored KI s labels -> stored KF s ms -> stored KF s lse -> stored KF s val -> stored KF s grad ->
  holds s src v -> elem s val [] = Fin L0 ->
  (forall idx, inb sh idx -> (0 <= ielem s labels idx < n)%Z) ->
  runs_any (crossentropy_calc (Fin a) src labels ms lse val grad) s (fun s' =>
    elem s' val [] = Fin (L0 + ce_loss a n sh (ielem s labels) v) /\
    (forall l idx, inb (n :: sh) (l :: idx) -> elem s' grad (l :: idx) = Fin (ce_grad a n (ielem s labels) v l idx)) /\
    frame [ms; lse; val; grad] s s').
Proof. intros. apply acc_any, crossentropy_acc; assumption. Qed.
End Calc.
