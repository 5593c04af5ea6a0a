(** * C35 for maxsumexp: partial (max, sum of exponents) pairs in reduction mode

    As PropRedux.v, with the reduction codelet of set_reduction_maxsumexp (accumulate_maxsumexp). *)
From Coq Require Import Reals Lra Lia Permutation.
From Verif Require Import Base Spec Geometry Traits TraitsProofs Runtime Ops TensorSem ElemGeneric OneOut
  KernelsElem ElemOps Axis AccRuns Loops SliceOps SliceGeo SliceProofs SliceReduce RealOps RSum Concrete PropElem PropElemR
  PropSlice SoftmaxOps PairGeo SoftmaxProofs SoftmaxRuns Sequence Serial KeepRuns XReals SoftmaxScalar PropSoftmax Redux ReduxRuns.
Local Open Scope R_scope.

(** As [rep], with the pair (0,0) for masked scores. *)
Definition nrep (p : XR * XR) (l : list XR) : Prop :=
  (masked l /\ p = (Fin 0, Fin 0)) \/ (exists M, is_max l M /\ p = (Fin M, Fin (Rsuml l (expm M)))).

Lemma nrep_rep p l : nrep p l -> rep p l.
Proof. intros [[H ->]|H]; [left|right]; auto. Qed.
Lemma rep_nrep p l : rep p l -> (masked l -> p = (Fin 0, Fin 0)) -> nrep p l.
Proof. intros [[H _]|H] Hm; [left|right]; auto. Qed.
Lemma nrep_unique p q l : nrep p l -> nrep q l -> p = q.
Proof.
  intros [[H ->]|(M & HM & ->)] [[H' ->]|(M' & HM' & ->)]; [reflexivity| | |].
  - destruct HM' as [Q _]. destruct (H _ Q).
  - destruct HM as [Q _]. destruct (H' _ Q).
  - rewrite (is_max_unique l M M') by assumption. reflexivity.
Qed.
Lemma nrep_perm p l1 l2 : Permutation l1 l2 -> nrep p l1 -> nrep p l2.
Proof.
  intros HP H. apply rep_nrep; [eapply rep_perm; [exact HP|apply nrep_rep; assumption]|]. intros Hm.
  destruct H as [[_ ->]|(M & [Q _] & _)]; [reflexivity|]. destruct (Hm M). eapply Permutation_in; eassumption.
Qed.
Lemma nrep_acc p q l1 l2 : nrep p l1 -> nrep q l2 -> nrep (acc_mse q p) (l1 ++ l2).
Proof.
  intros Hp Hq. apply rep_nrep; [apply acc_mse_rep; apply nrep_rep; assumption|]. intros Hm. apply masked_app in Hm as [H1 H2].
  destruct Hp as [[_ ->]|(M & [Q _] & _)]; [|destruct (H1 _ Q)]. destruct Hq as [[_ ->]|(M & [Q _] & _)]; [|destruct (H2 _ Q)].
  unfold acc_mse. cbn. rewrite (proj2 (Reqb_true 0 0) eq_refl). reflexivity.
Qed.
Lemma nrep_upd p l0 l st : nrep p l0 -> mse_inv l st -> nrep (mse_upd st p) (l0 ++ l).
Proof.
  intros Hp Hi. apply rep_nrep; [apply mse_upd_rep; [assumption|apply nrep_rep; assumption]|]. intros Hm. apply masked_app in Hm as [H1 H2].
  rewrite (mse_upd_masked l) by assumption. destruct Hp as [[_ ->]|(M & [Q _] & _)]; [reflexivity|destruct (H1 _ Q)].
Qed.
Lemma nrep_zero : nrep (Fin 0, Fin 0) [].
Proof. left. split; [intros r []|reflexivity]. Qed.

(** A pair that stands for some scores. *)
Definition npair (p : XR * XR) : Prop := exists l, nrep p l.
Lemma npair_acc p q : npair p -> npair q -> npair (acc_mse q p).
Proof. intros [l1 H1] [l2 H2]. exists (l1 ++ l2)%list. apply nrep_acc; assumption. Qed.
Lemma acc_comm p q : npair p -> npair q -> acc_mse q p = acc_mse p q.
Proof.
  intros [l1 H1] [l2 H2]. apply (nrep_unique _ _ (l1 ++ l2)); [apply nrep_acc; assumption|].
  eapply nrep_perm; [apply Permutation_app_comm|]. apply nrep_acc; assumption.
Qed.
Lemma acc_assoc p q r : npair p -> npair q -> npair r -> acc_mse r (acc_mse q p) = acc_mse (acc_mse r q) p.
Proof.
  intros [l1 H1] [l2 H2] [l3 H3]. apply (nrep_unique _ _ (l1 ++ l2 ++ l3)).
  - rewrite app_assoc. repeat apply nrep_acc; assumption.
  - repeat apply nrep_acc; assumption.
Qed.
Lemma acc_zero p : acc_mse (Fin 0, Fin 0) p = p.
Proof. unfold acc_mse. cbn. rewrite (proj2 (Reqb_true 0 0) eq_refl). reflexivity. Qed.
Lemma upd_acc p l st : npair p -> mse_inv l st -> mse_upd st p = acc_mse (mse_upd st (Fin 0, Fin 0)) p.
Proof.
  intros [l0 H] Hi. apply (nrep_unique _ _ (l0 ++ l)); [apply nrep_upd; assumption|]. apply nrep_acc; [assumption|].
  apply (nrep_upd _ [] l); [apply nrep_zero|assumption].
Qed.

(** Buffers of pairs *)
Definition pplus (a b : buf XR) : buf XR := BF (ptab (zlen (fl a) / 2) (fun c => acc_mse (pr (fl b) c) (pr (fl a) c))).

Lemma ptab_ext n (f g : Z -> XR * XR) : (0 <= n)%Z -> (forall c, (0 <= c < n)%Z -> f c = g c) -> ptab n f = ptab n g.
Proof. intros Hn H. apply (pair_ext n); [apply zlen_ptab; assumption..|]. intros c Hc. rewrite !pr_ptab by assumption. auto. Qed.
Lemma pr_zrep n c : (0 <= c < n)%Z -> pr (zrep (2 * n) (Fin 0)) c = (Fin 0, Fin 0).
Proof. intros Hc. unfold pr. rewrite !zn_zrep by lia. reflexivity. Qed.

Definition redux_maxsumexp (r : res (list (task XR))) s P : Prop := redux_runs clear_cpu accumulate_maxsumexp_cpu r s P.

Theorem C35_maxsumexp src dst axis s (L0 : list Z -> list XR) : wf_tensor src -> wf_tensor dst ->
  pair_match src dst axis -> disj src dst -> stored KF s src -> stored KF s dst -> scores s src ->
  (forall idx, inb (del axis (t_shape src)) idx ->
     rep (pelem s dst idx) (L0 idx) /\ (masked (L0 idx) -> pelem s dst idx = (Fin 0, Fin 0))) ->
  redux_maxsumexp (maxsumexp_async src dst axis true) s (fun s' =>
    (forall idx, inb (del axis (t_shape src)) idx ->
       rep (pelem s' dst idx) (L0 idx ++ axis_vals s src axis idx) /\
       (masked (axis_vals s src axis idx) -> pelem s' dst idx = pelem s dst idx)) /\
    frame [dst] s s').
Proof.
  intros Hs Hd Hm Hdj S1 S2 Hsc HL.
  pose proof (proj1 (C21_maxsumexp src dst axis s L0 Hs Hd) Hm Hdj S1 S2 Hsc (fun idx Hi => proj1 (HL idx Hi))) as HR.
  apply wf_wft in Hs, Hd. rewrite maxsumexp_submits in * by assumption.
  destruct (runs_deterministic _ _ _ HR) as (ts0 & s1 & E & Hseq & HP & _). inversion E; subst ts0. clear E HR.
  pose proof (pair_match_pairt _ _ _ Hm) as Hp. pose proof (sq_match _ _ _ Hm) as Hq. pose proof (sq_wft dst Hd Hp) as HQ.
  set (N := fun h : handle => (zlen (fl (s h)) / 2)%Z).
  assert (HN : forall i, (0 <= i < ntiles dst)%Z -> N (th dst i) = tsz (sq dst) i /\ (0 < tsz (sq dst) i)%Z).
  { intros i Hi. pose proof (S2 i Hi) as Q. destruct (s (th dst i)) as [l| |] eqn:Es; cbn [ty] in Q; inversion Q as [Ql]. unfold N. rewrite Es. cbn [fl].
    rewrite Ql, sq_tsz by assumption. split; [rewrite Z.mul_comm; apply Z.div_mul; lia|]. apply tsz_pos; [assumption|]. rewrite sq_ntiles by assumption. assumption. }
  set (Rh := fun h : handle => In h (tile_handles dst)).
  set (good := fun (h : handle) (b : buf XR) => exists l, b = BF l /\ zlen l = (2 * N h)%Z /\ forall c, (0 <= c < N h)%Z -> npair (pr l c)).
  assert (HNp : forall h, Rh h -> (0 < N h)%Z /\ ty (s h) = ty (BF (zrep (2 * N h) (Fin 0)))).
  { intros h Hh. destruct (handle_tile dst h Hd Hh) as (i & Hi & ->). destruct (HN i Hi) as [E1 E2]. split; [lia|].
    rewrite (S2 i Hi). cbn [ty]. rewrite zlen_zrep by lia. rewrite E1, <- sq_tsz by assumption. reflexivity. }
  set (I := fun st : store XR => keep [src] s st /\ forall h, Rh h -> good h (st h)).
  assert (Hgty : forall h b, Rh h -> good h b -> ty b = ty (s h)).
  { intros h b Hh (l & -> & Hl & _). destruct (HNp h Hh) as [E1 ->]. cbn [ty]. rewrite zlen_zrep by lia. rewrite Hl. reflexivity. }
  assert (Hdiv : forall h l, zlen l = (2 * N h)%Z -> (zlen (l : list XR) / 2)%Z = N h) by (intros h l ->; rewrite Z.mul_comm; apply Z.div_mul; lia).
  apply (redux_sequential clear_cpu accumulate_maxsumexp_cpu s I Rh good pplus (fun h => BF (zrep (2 * N h) (Fin 0)))) with (s1 := s1).
  - intros st st' E [H1 H2]. split; [eapply keep_ext; eassumption|]. intros h Hh. rewrite <- E. auto.
  - intros st [[H _] _]. assumption.
  - intros st h [_ H] Hh. auto.
  - intros st h b [[H1 H2] H3] Hh Hb. split; [split|].
    + intros k. unfold upd_store. destruct (Z.eqb_spec k h) as [->|]; [apply Hgty; assumption|apply H1].
    + intros t k [<-|[]] Hk. rewrite upd_ne; [apply (H2 src); [left; reflexivity|assumption]|]. intros ->. apply (Hdj h); assumption.
    + intros k Hk. unfold upd_store. destruct (Z.eqb_spec k h) as [->|]; auto.
  - intros h a b Hh (la & -> & La & Ga) (lb & -> & Lb & Gb). destruct (HNp h Hh) as [Hn _].
    eexists. split; [reflexivity|]. cbn [fl]. rewrite (Hdiv h) by assumption. split; [apply zlen_ptab; lia|].
    intros c Hc. rewrite pr_ptab by assumption. apply npair_acc; auto.
  - intros h a b Hh (la & -> & La & Ga) (lb & -> & Lb & Gb). destruct (HNp h Hh) as [Hn _].
    unfold pplus. cbn [fl]. rewrite !(Hdiv h) by assumption. f_equal. apply ptab_ext; [lia|]. intros c Hc. apply acc_comm; auto.
  - intros h a b c Hh (la & -> & La & Ga) (lb & -> & Lb & Gb) (lc & -> & Lc & Gc). destruct (HNp h Hh) as [Hn _].
    unfold pplus. cbn [fl]. rewrite !(Hdiv h la La), !(Hdiv h lb Lb), !(Hdiv h (ptab (N h) _)) by (apply zlen_ptab; lia).
    f_equal. apply ptab_ext; [lia|]. intros x Hx. rewrite !pr_ptab by assumption. apply acc_assoc; auto.
  - intros h Hh. destruct (HNp h Hh) as [Hn _]. eexists. split; [reflexivity|]. split; [apply zlen_zrep; lia|].
    intros c Hc. rewrite pr_zrep by assumption. exists []. apply nrep_zero.
  - intros h a c Hh (la & -> & La & Ga) (lc & -> & Lc & Gc). destruct (HNp h Hh) as [Hn _].
    unfold pplus. cbn [fl]. rewrite !(Hdiv h la La), !(Hdiv h (ptab (N h) _)) by (apply zlen_ptab; lia).
    f_equal. apply ptab_ext; [lia|]. intros x Hx. rewrite !pr_ptab, pr_zrep, acc_zero by assumption. reflexivity.
  - intros h junk Hh Hj. destruct (HNp h Hh) as [Hn Q]. rewrite Q in Hj. cbn [ty] in Hj. rewrite zlen_zrep in Hj by lia.
    destruct junk as [l| |]; cbn [ty] in Hj; inversion Hj as [Hl]. cbn [clear_cpu]. rewrite Hl. reflexivity.
  - intros h a b Hh (la & -> & La & Ga) (lb & -> & Lb & Gb). destruct (HNp h Hh) as [Hn _]. exists (BF lb).
    unfold accumulate_maxsumexp_cpu, pplus. cbn [fl]. unfold cdiv. cbn [Z.eqb]. rewrite Z.quot_div_nonneg by lia. rewrite (Hdiv h la La). bnd.
    rewrite k_accumulate_maxsumexp_ok by lia. reflexivity.
  - apply Forall_forall. intros t Ht. right. apply in_map_iff in Ht as ([i j] & <- & Hx). apply sg_xs_In in Hx. cbn [fst snd] in *. destruct Hx as [Hi Hj].
    pose proof (sg_bound src (sq dst) axis Hs HQ Hq i j Hi Hj) as Ho.
    destruct (sg_sizes src (sq dst) axis Hs HQ Hq i j Hi Hj) as (D0 & D1 & D2 & _ & T1 & T2 & T3). cbv zeta in *.
    assert (Hid : (0 <= i < ntiles dst)%Z) by (rewrite <- sq_ntiles by assumption; assumption).
    destruct (HN i Hid) as [N1 N2].
    set (o1 := sg_out src (sq dst) axis (i, j)) in *. set (d3 := dim3 axis (tsh src o1)) in *.
    set (F := fun (l : list XR) c => mse (zn d3 1) (fun x => zn l (cz [zn d3 0; zn d3 2] 0 c + zn d3 0 * (x + zn d3 1 * cz [zn d3 0; zn d3 2] 1 c))%Z)).
    exists [th src o1], (th dst i), (fun bs => BF (ptab (tsz (sq dst) i) (fun c => mse_upd (F (fl (hd (BF []) bs)) c) (Fin 0, Fin 0)))).
    split; [reflexivity|]. split; [intros [Q|[]]; apply (Hdj (th src o1)); [apply th_In; assumption|rewrite Q; apply th_In; assumption]|].
    split; [apply th_In; assumption|]. intros st d [[Hst1 Hst2] _] (l & -> & Ll & Gl). cbn [map hd app].
    assert (Es : st (th src o1) = s (th src o1)) by (apply (Hst2 src); [left; reflexivity|apply th_In; assumption]). rewrite Es.
    destruct (ty_BF (s (th src o1)) (tsz src o1)) as (ls & El & Lls); [apply S1; assumption|]. rewrite El. cbn [fl].
    assert (Hmse : forall c, (0 <= c < tsz (sq dst) i)%Z -> exists q, mse_inv q (F ls c)).
    { intros c Hc. eexists. apply mse_inv_ok; [assumption|]. intros x Hx.
      destruct (cz2_inv (zn d3 0) (zn d3 2) c) as (C1 & C2 & _); [assumption|assumption|congruence|].
      set (q := (cz [zn d3 0; zn d3 2] 0 c + zn d3 0 * (x + zn d3 1 * cz [zn d3 0; zn d3 2] 1 c))%Z) in *.
      destruct (cz3 (zn d3 0) (zn d3 1) (zn d3 2) _ x _ C1 Hx C2) as (_ & _ & _ & C4). assert (Hq0 : (0 <= q < tsz src o1)%Z) by (rewrite T2; exact C4).
      destruct (eidx_spec src o1 q Hs Ho Hq0) as (I1 & I2 & I3). pose proof (Hsc _ I1) as Q. unfold elem in Q. rewrite I2, I3, El in Q. exact Q. }
    split.
    + eexists. split; [reflexivity|]. rewrite N1. split; [apply zlen_ptab; lia|]. intros c Hc. rewrite pr_ptab by assumption.
      destruct (Hmse c Hc) as [q Hq']. exists ([] ++ q)%list. apply nrep_upd; [apply nrep_zero|assumption].
    + cbn [maxsumexp_submit t_body wrap2]. rewrite k_maxsumexp_ok; [|assumption..|congruence|rewrite <- T1, Ll, N1; reflexivity]. bnd.
      unfold pplus. cbn [fl]. rewrite (Hdiv (th dst i) l Ll). rewrite N1, T1. do 4 f_equal. rewrite <- T1. apply ptab_ext; [lia|]. intros c Hc.
      rewrite pr_ptab by assumption. destruct (Hmse c Hc) as [q Hq']. apply (upd_acc _ q); [apply Gl; rewrite N1; assumption|exact Hq'].
  - split; [apply keep_refl|]. intros h Hh. destruct (handle_tile dst h Hd Hh) as (i & Hi & ->). destruct (HN i Hi) as [N1 N2].
    destruct (ty_BF (s (th dst i)) (tsz dst i)) as (l & El & Ll); [apply S2; assumption|]. exists l. rewrite N1. split; [assumption|].
    split; [rewrite Ll; apply sq_tsz; assumption|]. intros c Hc. rewrite <- (sq_ntiles dst Hp) in Hi.
    destruct (eidx_spec (sq dst) i c HQ Hi Hc) as (I1 & I2 & I3).
    pose proof I1 as I1'. rewrite (sq_del src dst axis Hm) in I1'. destruct (HL _ I1') as [R1 R2].
    rewrite pelem_pr in R1, R2 by assumption. rewrite I2, I3, El in R1, R2. cbn [fl] in R1, R2.
    exists (L0 (eidx (sq dst) i c)). apply rep_nrep; assumption.
  - rewrite <- unred_sequential, map_map. exact Hseq.
  - exact HP.
Qed.

(** ** The hypotheses are satisfiable: the 5x3 scores of PropSoftmax.v, cleared pairs *)
Definition rz_s : store XR := put sx_ms (fun _ => Fin 0) sx_s.
Theorem C35_maxsumexp_example : redux_maxsumexp (maxsumexp_async sx_src sx_ms 0%Z true) rz_s (fun s' =>
  rep (pelem s' sx_ms [0%Z]) [Fin 0; NInf; Fin 2; Fin 3; Fin 4] /\ pelem s' sx_ms [2%Z] = (Fin 0, Fin 0)).
Proof.
  destruct sx_hyps as ((A1 & A2 & _) & (B1 & _) & (C1 & _) & (D1 & D2 & _) & E1 & _).
  assert (W1 := wf_wft _ A1). assert (W2 := wf_wft _ A2).
  assert (Z : forall idx, inb (del 0 (t_shape sx_src)) idx -> pelem rz_s sx_ms idx = (Fin 0, Fin 0)).
  { intros idx Hi. destruct (pelem_inb sx_ms sx_src 0 idx B1 Hi) as [P1 P2]. unfold pelem, rz_s. rewrite !put_elem by assumption. reflexivity. }
  assert (V : forall idx, inb (t_shape sx_src) idx -> elem rz_s sx_src idx = elem sx_s sx_src idx).
  { intros idx Hi. unfold rz_s, put at 1. rewrite put_elem_other; [reflexivity|assumption|intros h X Y; apply (C1 h); assumption|assumption]. }
  eapply redux_weaken; [apply (C35_maxsumexp sx_src sx_ms 0 rz_s (fun _ => []) A1 A2 B1)|].
  - intros h X Y. apply (C1 h); assumption.
  - apply put_stored_other; [assumption|intros h X Y; apply (C1 h); assumption|assumption].
  - apply put_stored; assumption.
  - intros idx Hi. rewrite V by assumption. apply E1. assumption.
  - intros idx Hi. rewrite Z by assumption. split; [left; split; [intros r []|reflexivity]|reflexivity].
  - intros s' [H _].
    assert (AV : forall c, (0 <= c < 3)%Z -> axis_vals rz_s sx_src 0 [c] = map (fun k => sx_val [k; c]) [0; 1; 2; 3; 4]%Z).
    { intros c Hc. unfold axis_vals. change (zn (t_shape sx_src) 0) with 5%Z. change (zrange 5) with [0; 1; 2; 3; 4]%Z.
      apply map_ext_in. intros k Hk. assert (Hk5 : (0 <= k < 5)%Z) by (cbn in Hk; lia). change (ins 0 k [c]) with [k; c].
      rewrite V by (repeat constructor; lia). apply sx_at; assumption. }
    split.
    + destruct (H [0%Z]) as [R1 _]; [repeat constructor; lia|]. rewrite AV in R1 by lia. exact R1.
    + destruct (H [2%Z]) as [_ R2]; [repeat constructor; lia|]. rewrite AV in R2 by lia. rewrite R2; [apply Z; repeat constructor; lia|].
      intros r [Q|[Q|[Q|[Q|[Q|[]]]]]]; discriminate Q.
Qed.
