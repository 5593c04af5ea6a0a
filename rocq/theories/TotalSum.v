(** * total_sum_accum over the reals *)
From Coq Require Import Reals Lra.
From Verif Require Import Base Spec Geometry Traits TraitsProofs Runtime Ops RealOps TensorSem ElemGeneric OneOut
  KernelsElem ElemOps Axis AccRuns Loops SliceOps SliceGeo SliceProofs Sequence KeepRuns CommRuns RSum LossOps LossProofs LossRuns.
Local Open Scope Z_scope.

(** One label per position, one row of scores per label, a scalar to accumulate into. *)
Definition total_match (lse src labels val : tensor) : Prop :=
  t_shape lse = t_shape labels /\ t_base lse = t_base labels /\ labels_match labels src /\ t_shape val = [].

Section S.
Context {T : Type} {O : Ops T}.
Variables (lse src labels val : tensor).
Hypothesis (H1 : wft lse) (H2 : wft src) (H3 : wft labels) (H4 : wft val).

Lemma total_check_checks : checks (total_match lse src labels val) (total_sum_check lse src labels val).
Proof.
  unfold total_sum_check. rewrite !t_ndim_eq by assumption.
  pose proof (wf_len lse H1) as L1. pose proof (wf_len src H2) as L2. pose proof (wf_len labels H3) as L3.
  pose proof (zlen_nonneg (t_shape labels)). pose proof (zlen_nonneg (t_shape lse)).
  apply (checks_iff (zlen (t_shape lse) = zlen (t_shape labels) /\ zlen (t_shape lse) = zlen (t_shape src) - 1 /\
     zlen (t_shape val) = 0 /\
     (forall i, 0 <= i < zlen (t_shape labels) ->
        (zn (t_shape lse) i = zn (t_shape labels) i /\ zn (t_base lse) i = zn (t_base labels) i) /\
        (zn (t_shape labels) i = zn (t_shape src) (i + 1) /\ zn (t_base labels) i = zn (t_base src) (i + 1))) /\
     zn (t_base src) 0 = zn (t_shape src) 0 /\ True)).
  { split.
    - intros (E & E' & Ev & H' & E0 & _). split; [|split; [|split]].
      + apply list_ext; [assumption|]. intros i Hi. apply H'. lia.
      + apply list_ext; [lia|]. intros i Hi. apply H'. lia.
      + exists (zn (t_shape src) 0). split.
        * apply shift_eq; [|lia]. intros i Hi. apply H'. lia.
        * rewrite <- E0. apply shift_eq; [|lia]. intros i Hi. apply H'. lia.
      + destruct (t_shape val); [reflexivity|]. rewrite zlen_cons in Ev. pose proof (zlen_nonneg l). lia.
    - intros (E & E' & (n & E1 & E2) & Ev). rewrite E, E', E1, E2, Ev. rewrite zlen_cons, !zn_cons0.
      split; [reflexivity|]. split; [lia|]. split; [reflexivity|]. split; [|auto].
      intros i Hi. rewrite !zn_consS by lia. rewrite Z.add_simpl_r. auto. }
  apply checks_eq. intros E. apply checks_eq. intros E'. apply checks_eq. intros Ev. apply checks_seq.
  - apply checks_for. intros i Hi. apply checks_seq; [apply check_dim_checks; (assumption || lia)|].
    intros _. apply check_dim_checks; (assumption || lia).
  - intros _. rewrite !rd_ok' by lia. apply checks_eq. intros _. apply checks_ok.
Qed.

Lemma val_one : t_shape val = [] -> t_base val = [] /\ ntiles val = 1 /\ tsz val 0 = 1.
Proof.
  intros E. pose proof (wf_len val H4) as L. rewrite E in L. assert (Eb : t_base val = []).
  { destruct (t_base val); [reflexivity|]. rewrite zlen_cons, zlen_nil in L. pose proof (zlen_nonneg l). lia. }
  unfold ntiles, tsz, tsh. rewrite E, Eb. auto.
Qed.

Lemma total_submits (alpha : T) : total_match lse src labels val ->
  total_sum_accum_async alpha lse src labels val = Ok (map (fun i =>
    total_sum_accum_submit alpha (zn (t_shape src) 0) (tsz labels i) (th lse i) (th src i) (th labels i) (th val 0))
    (zrange (ntiles labels))).
Proof.
  intros Hm. unfold total_sum_accum_async. rewrite (checks_true _ _ total_check_checks) by assumption. bnd.
  destruct Hm as (E1 & E2 & Hm & Ev). destruct (val_one Ev) as (Eb & En & _).
  rewrite get_tile_handle_ok by (assumption || lia). bnd.
  rewrite t_ntiles_eq by assumption. apply for_tasks. intros i acc Hi.
  assert (Hi1 : 0 <= i < ntiles lse) by (rewrite (ntiles_ext lse labels) by assumption; assumption).
  assert (Hi2 : 0 <= i < ntiles src) by (rewrite (lab_nt labels src) by assumption; assumption).
  rewrite !get_tile_handle_ok, get_tile_traits_ok by assumption. bnd. bnd. bnd. bnd.
  destruct (lab_n labels src H2 Hm) as (_ & E & _).
  rewrite rd_ok' by (rewrite E, zlen_cons; pose proof (zlen_nonneg (t_shape labels)); lia).
  change (tt_nelems (tt_of (tsh lse i))) with (tsz lse i). rewrite (tsz_ext lse labels) by assumption. reflexivity.
Qed.
End S.

Section R.
Local Open Scope R_scope.
Lemma ts_R no nl (lse src : list R) labels : (0 <= no)%Z ->
  ts_sum no nl lse src labels = (Rsum no (fun i => zn lse i - zn src (zn labels i + nl * i)%Z), 0).
Proof.
  intros Hn. pattern no. apply natlike_ind; [reflexivity| |assumption]. intros k Hk IH. unfold Z.succ, ts_sum.
  rewrite zrange_succ by assumption. rewrite fold_left_app. fold (ts_sum k nl lse src labels). rewrite IH.
  rewrite Rsum_succ by assumption. cbn. f_equal; lra.
Qed.

Variables (lse src labels val : tensor).
Hypothesis (H1 : wft lse) (H2 : wft src) (H3 : wft labels) (H4 : wft val).

Theorem total_sum_runs (alpha : R) s : total_match lse src labels val ->
  disj lse val -> disj src val -> disj labels val ->
  stored KF s lse -> stored KF s src -> stored KI s labels -> stored KF s val ->
  (forall idx, inb (t_shape labels) idx -> (0 <= ielem s labels idx < zn (t_shape src) 0)%Z) ->
  runs_comm [labels] (total_sum_accum_async alpha lse src labels val) s (fun s' =>
    elem s' val [] = elem s val [] +
      alpha * Rsuml (all_idx (t_shape labels)) (fun idx => elem s lse idx - elem s src (ielem s labels idx :: idx)) /\
    frame [val] s s').
Proof.
  intros Hm D1 D2 D3 S1 S2 S3 S4 Hlab. pose proof Hm as (E1 & E2 & Hl & Ev). destruct (val_one val H4 Ev) as (Eb & En & Ez).
  destruct (lab_n labels src H2 Hl) as (Hn & Esh & _). set (n := zn (t_shape src) 0) in *.
  set (X := fun (i : Z) (bs : list (buf R)) => Rsum (tsz labels i) (fun p =>
     zn (fl (nth 0 bs (BF []))) p - zn (fl (nth 1 bs (BF []))) (zn (il (nth 2 bs (BF []))) p + n * p)%Z)).
  set (F := fun (i : Z) (bs : list (buf R)) (d : list R) => [ts_val alpha (X i bs, 0) (zn d 0)]).
  set (pre := fun i => [th lse i; th src i; th labels i]).
  assert (Hi1 : forall i, (0 <= i < ntiles labels)%Z -> (0 <= i < ntiles lse)%Z) by (intros i Hi; rewrite (ntiles_ext lse labels) by assumption; assumption).
  assert (Hi2 : forall i, (0 <= i < ntiles labels)%Z -> (0 <= i < ntiles src)%Z) by (intros i Hi; rewrite (lab_nt labels src) by assumption; assumption).
  assert (Hv : (0 <= 0 < ntiles val)%Z) by lia.
  eapply comm_weaken; [apply (one_comm [labels] s (th val 0) 1 (zrange (ntiles labels)) MCOMMUTE pre
    (fun i => total_sum_accum_cpu alpha n (tsz labels i)) F)|].
  - auto.
  - rewrite S4 by lia. rewrite Ez. reflexivity.
  - intros i Hi Hin. apply zrange_In in Hi. unfold pre in Hin.
    destruct Hin as [E|[E|[E|[]]]]; symmetry in E; revert E.
    + intros E. apply (th_neq lse val i 0); auto.
    + intros E. apply (th_neq src val i 0); auto.
    + intros E. apply (th_neq labels val i 0); auto.
  - intros t [<-|[]] Hin. apply (D3 (th val 0)); [assumption|]. apply th_In; assumption.
  - reflexivity.
  - intros i st d Hi Hk Hd. apply zrange_In in Hi.
    destruct (bufF s st lse i (proj1 Hk) S1 (Hi1 i Hi)) as (a & Ea & La).
    destruct (bufF s st src i (proj1 Hk) S2 (Hi2 i Hi)) as (b & Ebb & Lb).
    assert (Es : st (th labels i) = s (th labels i)) by (apply (proj2 Hk labels); [left; reflexivity|apply th_In; assumption]).
    destruct (ty_BI (s (th labels i)) (tsz labels i)) as (c & Ec & Lc); [apply S3; assumption|].
    unfold pre, F. cbn [map app nth]. rewrite Ea, Ebb, Es, Ec. cbn [total_sum_accum_cpu].
    assert (exists v, d = [v]) as (v & ->).
    { destruct d as [|v [|? l]]; [rewrite zlen_nil in Hd; lia|eauto|]. rewrite !zlen_cons in Hd. pose proof (zlen_nonneg l). lia. }
    rewrite (tsz_ext lse labels) in La by assumption. rewrite (lab_tsz labels src) in Lb by assumption. fold n in Lb.
    pose proof (tsz_pos labels i H3 Hi) as Hp.
    rewrite k_total_sum_ok; [|assumption|lia|assumption|assumption|assumption|].
    + bnd. rewrite ts_R by lia. unfold X. cbn [nth fl il]. reflexivity.
    + intros p Hp'. pose proof (lab_range labels H3 s n i p Hlab Hi Hp') as Q. rewrite Ec in Q. assumption.
  - intros i j st d Hi Hj Hk Hd. unfold F. rewrite !zn_cons0. unfold ts_val. cbn [o_add o_sub o_mul fst snd Rops]. f_equal. lra.
  - rewrite total_submits by assumption. reflexivity.
  - intros s' Hk [Hh Hf]. split.
    + unfold elem at 1. assert (Et : etile val [] = 0%Z) by (unfold etile; rewrite Ev; reflexivity).
      assert (Eo : eoff val [] = 0%Z) by (unfold eoff; rewrite Ev; reflexivity). rewrite Et, Eo, Hh. cbn [fl].
      unfold elem at 1. rewrite Et, Eo.
      rewrite <- (Rsum_by_tiles labels (fun idx => elem s lse idx - elem s src (ielem s labels idx :: idx))) by assumption.
      assert (EX : forall i, (0 <= i < ntiles labels)%Z -> X i (map s (pre i)) =
        Rsum (tsz labels i) (fun o => elem s lse (eidx labels i o) - elem s src (ielem s labels (eidx labels i o) :: eidx labels i o))).
      { intros i Hi. unfold X, pre. cbn [map nth]. apply Rsum_ext. intros o Ho.
        destruct (eidx_spec labels i o H3 Hi Ho) as (I1 & I2 & I3). pose proof (Hlab _ I1) as Hr.
        unfold elem at 1. rewrite (etile_ext lse labels), (eoff_ext lse labels) by assumption. rewrite I2, I3.
        unfold elem. rewrite (lab_etile labels src), (lab_eoff labels src) by assumption. rewrite I2, I3.
        unfold ielem. rewrite I2, I3. fold n. reflexivity. }
      assert (G : forall g (d : list R), (0 <= g <= ntiles labels)%Z -> zlen d = 1%Z ->
        zn (fold_left (fun d x => F x (map s (pre x)) d) (zrange g) d) 0 =
        zn d 0%Z + alpha * Rsum g (fun i => X i (map s (pre i)))).
      { intros g d [Hg Hg']. revert Hg'. pattern g. apply natlike_ind; [| |assumption].
        - intros _ Hd. rewrite Rsum_neg by lia. rewrite (zrange_neg 0) by lia. cbn [fold_left]. lra.
        - intros k Hk' IH Hg' Hd. unfold Z.succ. rewrite zrange_succ by assumption. rewrite fold_left_app. cbn [fold_left].
          unfold F at 1. rewrite zn_cons0. unfold ts_val. rewrite IH by (lia || assumption). rewrite Rsum_succ by assumption. cbn [o_add o_sub o_mul fst snd Rops]. lra. }
      rewrite G; [|pose proof (ntiles_pos labels H3); lia|].
      2:{ destruct (ty_BF _ _ (S4 0%Z Hv)) as (d & Ed & Ld). rewrite Ed. cbn [fl]. lia. }
      f_equal. f_equal. apply Rsum_ext. exact EX.
    + intros h Hh'. apply Hf. intros ->. apply (Hh' val); [left; reflexivity|]. apply th_In; assumption.
Qed.
End R.
