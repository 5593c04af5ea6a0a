(** * Training of models made of pieces with the cross-entropy: minibatches, batches, the optimizer

    As GptTrain, for models whose input is a tensor of floats, node 0.  The environment is fixed: its
    assertion [K] speaks of the tensors of the minibatches. *)
From Coq Require Import Reals Lra FunctionalExtensionality Sorted.
From Coquelicot Require Import Coquelicot.
From Verif Require Import Base Spec Geometry Traits TraitsProofs Runtime Ops RealOps TensorSem OneOut ElemOps ElemGeneric Concrete Axis SliceGeo Sequence XReals NdRuns AnyRuns Serial2 RSum AttnSpec MatOps PropElem IntCopy CrossEntropy XTriples HasRuns TapeMath VjpMath Tape PyLayers PyLinear PySimple PyNorm AttMath PyAttn Backprop CeLoss PropLayers PropModel PyTrain PropTrain PyAdam PropAdam PyModels BuildEnv BuildModel OptBuild GptSpec GptModel GptRun GptTrain Segments SegDiff PyMixer MixerRuns MixSpec MixerSeg PropMixer PyMixModels MixBuild MixModel PropMixModel.
Local Close Scope Z_scope.
Local Open Scope R_scope.

(** A minibatch: tensors with the input and the labels, and their contents. *)
Record fsample := { fx : tensor; fy : tensor; fval : arr; flab : list Z -> Z }.

(** Copying a tensor outside of the environment into a named tensor. *)
Lemma h_copy_in {E : env} M s (src : tensor) y (f : arr) : has M s -> U y -> wf_tensor src -> disj src (A y) -> same_tiling src (A y) ->
  (K s -> stored KF s src /\ forall idx, inb (t_shape src) idx -> elem s src idx = Fin (f idx)) ->
  runs_nd (copy_async src (A y)) s (has (upd y (Some (fin f)) M)).
Proof.
  intros HM Uy Ws Hd Ht HK. destruct (HK (has_K _ _ HM)) as [Ss Vs].
  apply (h_lift M s y _ f f HM Uy); [|reflexivity].
  eapply runs_weaken; [apply (proj1 (C12_copy src (A y) s Ws (UW y Uy)) Ht Ss (has_st M s y HM Uy) Hd)|].
  intros s' _ [H1 H2]. split; [|assumption]. intros idx Hi. rewrite H1 by assumption. apply Vs. destruct Ht as [-> _]. assumption.
Qed.

Section Train.
Context {E : env} (req : nat -> bool).
Variables (gs : list segment) (acts ps : list nat) (o lid kid : nat) (labels : tensor) (V : Z) (sh : list Z) (data : list fsample) (a : R).
Notation ls := (all_layers gs).
Notation ns := (0%nat :: ps).
Hypothesis Hm : segs_ok req gs ns o lid.
Hypothesis Hacts : incl (outs (lms ls)) acts.
Hypothesis Hgrad : forall n, In n acts -> req n = true -> U (Grad n).
Hypothesis Hrps : forall p, In p ps -> req p = true.
Hypothesis Hap : forall p, In p acts -> ~ In p ps.
Hypothesis Hnodes : forall m, U (Grad m) -> req m = true -> ~ In m acts -> In m ps.
Hypothesis Hce : ce_shape req o lid labels V sh.

(** the data *)
Record fsample_ok (d : fsample) : Prop := {
  fs_x : wf_tensor (fx d) /\ disj (fx d) (A (Val 0)) /\ same_tiling (fx d) (A (Val 0));
  fs_y : wf_tensor (fy d) /\ disj (fy d) labels /\ same_tiling (fy d) labels;
  fs_rng : forall idx, inb sh idx -> (0 <= flab d idx < V)%Z
}.
Hypothesis Hdata : forall d, In d data -> fsample_ok d.
Hypothesis HKx : forall s d, K s -> In d data -> stored KF s (fx d) /\ forall idx, inb (t_shape (fx d)) idx -> elem s (fx d) idx = Fin (fval d idx).
Hypothesis HKy : forall s d, K s -> In d data -> stored KI s (fy d) /\ forall idx, inb sh idx -> ielem s (fy d) idx = flab d idx.
Hypothesis HKl : forall s, K s -> stored KI s labels.
Hypothesis HKf : forall s s' : store XR, tinv s s' -> frame [labels] s s' -> K s -> K s'.

(** the tasks *)
Definition seg_loss : res (list (task XR)) :=
  crossentropy_calc (Fin a) (A (Val o)) labels (A (Tmp lid 1)) (A (Tmp lid 2)) (A (Tmp lid 0)) (A (Grad o)).
Definition seg_batch (op : optimizer) (it : Z) (mbs : list fsample) : res (list (task XR)) :=
  train_batch (map (node req) ps) (map (node req) acts) (A (Tmp lid 0)) (A (Val 0)) labels (map sg_py gs) seg_loss
    (map (fun d => (fx d, fy d)) mbs) (o_tasks req ps kid op it).
Fixpoint seg_train (op : optimizer) (it : Z) (batches : list (list fsample)) : res (list (task XR)) :=
  match batches with [] => Ok [] | mbs :: rest => then_ (seg_batch op it mbs) (seg_train op (it + 1) rest) end.

(** the loss of a minibatch as a function of the parameters *)
Notation e0 X P := (penv ns (xp X P)).
Definition seg_mb (P : nat -> arr) (d : fsample) : R := ce_loss a V sh (flab d) (eval (lms ls) (e0 (fval d) P) o).
Definition smooth (P : nat -> arr) (d : fsample) : Prop := dom (lms ls) (e0 (fval d) P).

Definition Mst (P : nat -> arr) (l : option R) (kn : nat -> nat -> option arr) : smap := fun x =>
  match x with
  | Val m => if in_dec Nat.eq_dec m ps then Some (fin (penv ps P m)) else None
  | Grad _ => None
  | Tmp k i => if Nat.eq_dec k lid then if Nat.eq_dec i 0 then match l with Some l => Some (fin (fun _ => l)) | None => None end else None
      else match kn k i with Some f => Some (fin f) | None => None end
  end.

Let PD : NoDup ps.
Proof. pose proof (sk_leaves _ _ _ _ _ Hm) as H. inversion H; assumption. Qed.
Let N0 : ~ In 0%nat ps.
Proof. pose proof (sk_leaves _ _ _ _ _ Hm) as H. inversion H; assumption. Qed.
Lemma penv_cons X P m : In m ps -> e0 X P m = penv ps P m.
Proof.
  intros Hi. unfold penv. cbn [index]. destruct (Nat.eq_dec 0 m) as [<-|_]; [contradiction|]. reflexivity.
Qed.
Lemma vary_xp X P j idx t : (j < List.length ps)%nat -> vary (e0 X P) (nth j ps O) idx t = e0 X (vary P j idx t).
Proof.
  intros Hj. change (nth j ps O) with (nth (S j) ns O). rewrite penv_vary by (apply (sk_leaves _ _ _ _ _ Hm) || (cbn [List.length]; lia)).
  f_equal. apply functional_extensionality. intros [|m]; unfold vary; cbn [xp]; [destruct (Nat.eq_dec 0 (S j)); [lia|reflexivity]|].
  destruct (Nat.eq_dec m j), (Nat.eq_dec (S m) (S j)); try lia; reflexivity.
Qed.

(** ** One minibatch *)
Lemma mb_runs d P l kn Gr s : In d data -> smooth P d -> (forall k i f, kn k i = Some f -> k <> lid /\ ~ In k (ids ls)) ->
  has (known_out req acts (Mst P (Some l) kn) Gr) s ->
  runs_acc (minibatch (map (node req) acts) (A (Val 0)) labels (map sg_py gs) seg_loss (fx d, fy d)) s (fun s' => exists Gr',
    has (known_out req acts (Mst P (Some (l + seg_mb P d)) kn) Gr') s' /\
    forall j idx, (j < List.length ps)%nat -> inb (vshape (nth j ps O)) idx ->
      is_derive (fun t => l + seg_mb (vary P j idx t) d) (P j idx) (Gr' (nth j ps O) idx - Gr (nth j ps O) idx)).
Proof.
  intros Hd Hsm Hkn Hs. destruct (Hdata d Hd) as [(Wx & Dx & Tx) (Wy & Dy & Ty) Hr].
  assert (U0 : U (Val 0)) by (apply (sk_nodes _ _ _ _ _ Hm 0%nat); apply in_or_app; right; left; reflexivity).
  assert (HL : forall g, In g gs -> segment_good req g) by (apply Forall_forall; apply (sk_good _ _ _ _ _ Hm)).
  assert (Sl : Forall saved_local ls /\ Forall (fun l => vjp vshape (ly_m l)) ls).
  { unfold all_layers. split; apply Forall_forall; intros x Hx; apply in_flat_map in Hx as (g & Hg & Hx); destruct (HL g Hg) as (Q1 & Q2 & _); rewrite Forall_forall in Q1, Q2; auto. }
  assert (Hnd := sk_ids _ _ _ _ _ Hm). apply NoDup_cons_iff in Hnd as [Nl Nd].
  unfold minibatch. cbn [fst snd].
  rewrite pyseq_cons. eapply acc_then.
  { apply nd_acc. apply (clear_st req acts (Mst P (Some l) kn) Gr s Hs). exact Hgrad. }
  intros s1 _ H1. cbv beta in H1. unfold st in H1. rewrite pyseq_cons. eapply acc_then; [apply nd_acc; apply (h_copy_in _ s1 (fx d) (Val 0) (fval d) H1 U0 Wx Dx Tx)|].
  { intros HK. exact (HKx s1 d HK Hd). }
  intros s2 _ H2.
  set (M0 := upd (Val 0) (Some (fin (fval d))) (Mst P (Some l) kn)).
  assert (H2' : st req M0 (cleared acts Gr) s2).
  { eapply has_sub; [exact H2|]. intros x f _ Hf. unfold M0 in Hf. destruct x as [m|m|k i]; cbn [ov] in Hf |- *; unfold upd in *.
    - destruct (gvar_dec (Val m) (Val 0)); assumption.
    - destruct (gvar_dec (Grad m) (Val 0)); [discriminate|]. exact Hf.
    - destruct (gvar_dec (Tmp k i) (Val 0)); [discriminate|]. exact Hf. }
  assert (EQ : forall f y q g : res (list (task XR)), pyseq [f; y; q; g] = pyseq [f; then_ y q; g]).
  { intros. rewrite !pyseq_cons. f_equal. rewrite then_assoc. reflexivity. }
  rewrite EQ.
  set (lossr := then_ (copy_async (fy d) labels) seg_loss).
  assert (LG : loss_good req runs_acc (ids ls) o lid M0 (fun _ => True)
    (fun v => l + ce_loss a V sh (flab d) v) (fun v i => match i with z :: idx => ce_grad a V (flab d) v z idx | [] => 0 end) lossr).
  { refine (ce_good_copied req (ids ls) o lid (fy d) labels (flab d) V sh M0 a l Hce Nl _ Wy Ty Dy HKf _ Hr).
    - unfold M0. rewrite upd_ne by discriminate. cbn [Mst]. destruct (Nat.eq_dec lid lid); [|congruence]. reflexivity.
    - intros s0 HK. split; [apply HKl; assumption|]. apply HKy; assumption. }
  assert (GO := ce_gradient_s req o lid labels (flab d) V sh a l Hce Hr).
  eapply acc_weaken.
  { eapply (core_seg req runs_acc kind_acc ls (all_zero gs) _ _ ns o lid (fun _ => True) _ _ lossr (e0 (fval d) P) M0 (cleared acts Gr) s2
      (proj1 Sl) (proj2 Sl) (segs_fwd req gs (sk_good _ _ _ _ _ Hm) Nd) (segs_bwd req gs (sk_good _ _ _ _ _ Hm) Nd ns (sk_ordered _ _ _ _ _ Hm) (sk_zero _ _ _ _ _ Hm))
      (sk_zero' _ _ _ _ _ Hm) Nd Nl (sk_ordered _ _ _ _ _ Hm) (sk_leaves _ _ _ _ _ Hm) (sk_o _ _ _ _ _ Hm)).
    - intros m Hm'. apply (sk_nodes _ _ _ _ _ Hm). apply in_or_app. tauto.
    - intros m Hm'. unfold cleared. destruct (in_dec Nat.eq_dec m acts) as [|C]; [reflexivity|exfalso; apply C; apply Hacts; assumption].
    - exact GO.
    - exact LG.
    - exact Hsm.
    - exact Logic.I.
    - exact H2'.
    - intros m [<-|Hm']; unfold M0.
      + rewrite upd_eq. reflexivity.
      + rewrite upd_ne by (intros C; inversion C; subst; contradiction). cbn [Mst]. destruct (in_dec Nat.eq_dec m ps); [|contradiction]. rewrite penv_cons by assumption. reflexivity. }
  clear LG GO. intros s3 _ (M' & G' & A1 & A2 & A3 & A4 & A5 & A6 & A7). exists G'. split.
  - eapply has_sub; [exact A1|]. intros x f Ux Hf. destruct x as [m|m|k i]; cbn [known_out Mst ov] in *.
    + destruct (in_dec Nat.eq_dec m ps) as [Hp|]; [|discriminate]. rewrite A4.
      * unfold M0. rewrite upd_ne by (intros C; inversion C; subst; contradiction). cbn [Mst]. destruct (in_dec Nat.eq_dec m ps); [assumption|contradiction].
      * unfold leaf. intros C. exact (Hap _ (Hacts _ C) Hp).
    + destruct (in_dec Nat.eq_dec m acts); [discriminate|]. exact Hf.
    + destruct (Nat.eq_dec k lid) as [->|Nk].
      * destruct (Nat.eq_dec i 0) as [->|]; [|discriminate]. rewrite A3. exact Hf.
      * destruct (kn k i) as [f'|] eqn:Ek; [|discriminate]. destruct (Hkn k i f' Ek) as [_ K2]. rewrite A5 by assumption.
        unfold M0. rewrite upd_ne by discriminate. cbn [Mst]. destruct (Nat.eq_dec k lid); [contradiction|]. rewrite Ek. assumption.
  - intros j idx Hj Hi.
    assert (Hin : In (nth j ps O) ps) by (apply nth_In; assumption).
    specialize (A6 _ idx (or_intror Hin) Hi). unfold cleared in A6. destruct (in_dec Nat.eq_dec (nth j ps O) acts) as [C|_]; [exfalso; exact (Hap _ C Hin)|].
    rewrite penv_cons in A6 by assumption. unfold penv in A6 at 2. rewrite index_nth in A6 by assumption.
    eapply is_derive_ext; [|exact A6]. intros t. cbn beta. rewrite vary_xp by assumption. reflexivity.
Qed.

(** ** One batch *)
Definition sum_mb (P : nat -> arr) (mbs : list fsample) : R := fold_right (fun d z => seg_mb P d + z) 0 mbs.
Lemma mbs_runs P mbs : incl mbs data -> (forall d, In d mbs -> smooth P d) -> forall l kn Gr s,
  (forall k i f, kn k i = Some f -> k <> lid /\ ~ In k (ids ls)) -> has (known_out req acts (Mst P (Some l) kn) Gr) s ->
  runs_acc (pyseq (map (minibatch (map (node req) acts) (A (Val 0)) labels (map sg_py gs) seg_loss) (map (fun d => (fx d, fy d)) mbs))) s (fun s' => exists Gr',
    has (known_out req acts (Mst P (Some (l + sum_mb P mbs)) kn) Gr') s' /\
    forall j idx, (j < List.length ps)%nat -> inb (vshape (nth j ps O)) idx ->
      is_derive (fun t => sum_mb (vary P j idx t) mbs) (P j idx) (Gr' (nth j ps O) idx - Gr (nth j ps O) idx)).
Proof.
  induction mbs as [|d mbs IH]; intros Hi Hsm l kn Gr s Hkn Hs; cbn [map sum_mb fold_right].
  - apply nd_acc, py_nil. exists Gr. split; [rewrite Rplus_0_r; assumption|]. intros j idx _ _. rewrite Rminus_diag_eq by reflexivity. apply (is_derive_const (K := R_AbsRing) (V := R_NormedModule)).
  - rewrite pyseq_cons. eapply acc_then; [apply (mb_runs d P l kn Gr s (Hi d (or_introl eq_refl)) (Hsm d (or_introl eq_refl)) Hkn Hs)|].
    intros s1 _ (G1 & H1 & D1). eapply acc_weaken.
    { apply (IH ltac:(intros x Hx; apply Hi; right; assumption) ltac:(intros x Hx; apply Hsm; right; assumption) _ kn G1 s1 Hkn H1). }
    intros s2 _ (G2 & H2 & D2). exists G2. split.
    + fold (sum_mb P mbs). rewrite <- Rplus_assoc. exact H2.
    + intros j idx Hj Hx. specialize (D1 j idx Hj Hx). specialize (D2 j idx Hj Hx).
      replace (G2 (nth j ps O) idx - Gr (nth j ps O) idx) with (((G1 (nth j ps O) idx - Gr (nth j ps O) idx) - 0) + (G2 (nth j ps O) idx - G1 (nth j ps O) idx)) by ring.
      eapply is_derive_ext; [|apply (is_derive_plus (K := R_AbsRing) (V := R_NormedModule)); [apply (is_derive_minus (K := R_AbsRing) (V := R_NormedModule)); [exact D1|apply (is_derive_const (K := R_AbsRing) (V := R_NormedModule)) with (a := l)]|exact D2]].
      intros t. unfold minus, plus, opp; cbn. unfold sum_mb. ring.
Qed.

(** The optimizer. *)
Variable op : optimizer.
Hypothesis Hok : opt_ok op.
Hypothesis Hopt : forall p j, In p ps -> In j (opt_kinds op kid) -> U (Tmp j p) /\ same_tiling (A (Tmp j p)) (A (Val p)).
Hypothesis Hfree : forall k, In k (o_sids kid) -> k <> lid /\ ~ In k (ids ls).
Lemma so_good : opt_good ps (o_sids kid) _ (o_tasks req ps kid op) (o_known ps kid op) (o_inv ps op) (o_new op) (o_next op).
Proof.
  apply (optimizer_good req ps kid op Hok PD). intros p Hp. split; [|split; [apply Hrps; assumption|]].
  - apply (sk_nodes _ _ _ _ _ Hm). apply in_or_app. right. right. assumption.
  - intros j Hj. apply Hopt; assumption.
Qed.
Notation S2 m v := (penv ps m, penv ps v).
Variable shapes : list (list Z).
Hypothesis Hshapes : map vshape ps = shapes.
Lemma s_len : List.length shapes = List.length ps.
Proof. rewrite <- Hshapes. apply map_length. Qed.
Lemma s_at j : (j < List.length ps)%nat -> vshape (nth j ps O) = nth j shapes [].
Proof. intros Hj. rewrite <- Hshapes. rewrite (nth_indep _ [] (vshape O)) by (rewrite map_length; assumption). rewrite map_nth. reflexivity. Qed.

Lemma batch_runs it P m v l mbs s : incl mbs data -> (forall d, In d mbs -> smooth P d) -> o_inv ps op it (S2 m v) ->
  has (Mst P l (o_known ps kid op it (S2 m v))) s ->
  runs_acc (seg_batch op it mbs) s (fun s' => exists P' m' v',
    opt_update op shapes it (fun P => sum_mb P mbs) P m v P' m' v' /\
    o_inv ps op (it + 1) (S2 m' v') /\
    has (Mst P' (Some (sum_mb P mbs)) (o_known ps kid op (it + 1) (S2 m' v'))) s').
Proof.
  intros Hi Hsm Hinv Hs. set (kn := o_known ps kid op it (S2 m v)) in *.
  destruct so_good as [g1 g2 g3].
  assert (Hkn : forall k i f, kn k i = Some f -> k <> lid /\ ~ In k (ids ls)).
  { intros k i f Hf. destruct (g1 it (S2 m v) k i f Hf) as [Hk _]. apply Hfree; assumption. }
  assert (U0 := cs_U _ _ _ _ _ _ Hce 0%nat ltac:(lia)).
  unfold seg_batch, train_batch. cbn [app].
  rewrite pyseq_cons. eapply acc_then.
  { apply nd_acc. apply (clear_tape req ps _ s Hs). intros p Hp Hr. apply (sk_nodes _ _ _ _ _ Hm p ltac:(apply in_or_app; right; right; assumption)). assumption. }
  intros s1 _ H1. cbv beta in H1. rewrite pyseq_cons.
  eapply acc_then; [apply nd_acc; apply (h_clear _ s1 (Tmp lid 0) (fun _ => 0) H1 U0); reflexivity|].
  intros s2 _ H2. cbv beta in H2.
  assert (H2' : has (known_out req acts (Mst P (Some 0) kn) (fun _ _ => 0)) s2).
  { eapply has_sub; [exact H2|]. intros x f Ux Hf. destruct x as [q|q|k i]; cbn [known_out] in Hf.
    - rewrite upd_ne by discriminate. exact Hf.
    - rewrite upd_ne by discriminate. destruct (in_dec Nat.eq_dec q acts) as [|Ha]; [discriminate|]. destruct (req q) eqn:Er; [|discriminate].
      destruct (in_dec Nat.eq_dec q ps) as [|Np]; [exact Hf|]. exfalso. apply Np. apply Hnodes; assumption.
    - unfold upd. destruct (gvar_dec (Tmp k i) (Tmp lid 0)) as [Eq|Ne].
      + assert (Ek : k = lid /\ i = O) by (split; congruence). destruct Ek as [-> ->]. cbn [Mst] in Hf. destruct (Nat.eq_dec lid lid); [|congruence]. exact Hf.
      + cbn [Mst] in *. destruct (Nat.eq_dec k lid) as [->|]; [destruct (Nat.eq_dec i 0); [subst; congruence|discriminate]|exact Hf]. }
  clear H1 H2.
  rewrite pyseq_app. eapply acc_then; [apply (mbs_runs P mbs Hi Hsm 0 kn (fun _ _ => 0) s2 Hkn H2')|].
  intros s3 _ (Gr & H3 & D3). rewrite pyseq_1. rewrite Rplus_0_l in H3.
  set (g := fun j => Gr (nth j ps O)).
  eapply acc_weaken; [apply nd_acc; apply (g3 it (S2 m v) (known_out req acts (Mst P (Some (sum_mb P mbs)) kn) Gr) s3 (penv ps P) (penv ps g) Hinv H3)|].
  - intros p Hp. cbn [known_out Mst]. destruct (in_dec Nat.eq_dec p ps); [|contradiction]. split; [reflexivity|].
    destruct (in_dec Nat.eq_dec p acts) as [Ha|_]; [exfalso; exact (Hap p Ha Hp)|].
    rewrite Hrps by assumption. unfold penv, g. destruct (nth_index _ _ Hp) as [-> _]. reflexivity.
  - intros k i f Hf. cbn [known_out Mst]. destruct (Nat.eq_dec k lid) as [->|]; [destruct (Hkn _ _ _ Hf); congruence|]. unfold kn. rewrite Hf. reflexivity.
  - intros s4 _ (M' & H4 & Q1 & Q2 & Q3 & Q4).
    exists (fun j i => rule_p op it (P j i) (g j i) (m j i) (v j i)), (fun j i => rule_m op it (P j i) (g j i) (m j i) (v j i)), (fun j i => rule_v op it (P j i) (g j i) (m j i) (v j i)).
    split; [|split].
    + exists g. split; [|repeat split]. intros j idx Hj Hx. rewrite s_len in Hj. rewrite <- s_at in Hx by assumption.
      specialize (D3 j idx Hj Hx). rewrite Rminus_0_r in D3. exact D3.
    + exact (g2 it (S2 m v) (penv ps P) (penv ps g) Hinv).
    + eapply has_sub; [exact H4|]. intros x f Ux Hf. destruct x as [q|q|k i]; cbn [Mst] in Hf.
      * destruct (in_dec Nat.eq_dec q ps) as [Hq|]; [|discriminate]. rewrite <- Hf. apply (Q1 q Hq).
      * discriminate.
      * destruct (Nat.eq_dec k lid) as [->|Nk].
        -- rewrite Q3 by (intros C; destruct (Hfree _ C); congruence). cbn [known_out Mst]. destruct (Nat.eq_dec lid lid); [|congruence]. exact Hf.
        -- destruct (o_known ps kid op (it + 1) _ k i) as [f'|] eqn:Ek; [|discriminate]. rewrite <- Hf. apply Q4. exact Ek.
Qed.

(** ** All batches *)
Lemma train_runs batches : (forall mbs, In mbs batches -> incl mbs data) -> forall it P m v l s,
  (forall done mbs rest P1 m1 v1 hist, batches = done ++ mbs :: rest ->
     opt_iterates op shapes it (map (fun mbs P => sum_mb P mbs) done) P m v P1 m1 v1 hist -> forall d, In d mbs -> smooth P1 d) ->
  o_inv ps op it (S2 m v) -> has (Mst P l (o_known ps kid op it (S2 m v))) s ->
  runs_acc (seg_train op it batches) s (fun s' => exists P' m' v' hist,
    opt_iterates op shapes it (map (fun mbs P => sum_mb P mbs) batches) P m v P' m' v' hist /\
    has (Mst P' (match hist with [] => l | _ => Some (last hist 0) end) (o_known ps kid op (it + zlen batches) (S2 m' v'))) s').
Proof.
  induction batches as [|mbs rest IH]; intros Hi it P m v l s Hsm Hinv Hs; cbn [seg_train map opt_iterates].
  - apply nd_acc, nd_nop. exists P, m, v, []. split; [repeat split|]. change (zlen []) with 0%Z. rewrite Z.add_0_r. exact Hs.
  - eapply acc_then.
    { apply (batch_runs it P m v l mbs s (Hi mbs (or_introl eq_refl))); try assumption.
      apply (Hsm [] mbs rest P m v []); [reflexivity|]. repeat split. }
    intros s1 _ (P1 & m1 & v1 & U1 & I1 & H1). eapply acc_weaken.
    { apply (IH ltac:(intros x Hx; apply Hi; right; assumption) (it + 1)%Z P1 m1 v1 (Some (sum_mb P mbs)) s1); try assumption.
      intros done mbs' rest' P2 m2 v2 hist Eq Hit. apply (Hsm (mbs :: done) mbs' rest' P2 m2 v2 (sum_mb P mbs :: hist)); [rewrite Eq; reflexivity|].
      exists P1, m1, v1, hist. split; [assumption|]. split; [reflexivity|assumption]. }
    intros s2 _ (P' & m' & v' & hist & T1 & T2). exists P', m', v', (sum_mb P mbs :: hist). split.
    + exists P1, m1, v1, hist. split; [assumption|]. split; [reflexivity|assumption].
    + replace (last (sum_mb P mbs :: hist) 0) with (match hist with [] => sum_mb P mbs | _ => last hist 0 end) by (destruct hist; reflexivity).
      replace (it + zlen (mbs :: rest))%Z with (it + 1 + zlen rest)%Z by (rewrite zlen_cons; lia). destruct hist; exact T2.
Qed.
End Train.
