(** * Gradient formulas of single layers

    Vector-Jacobian products for the functions computed by the layers: gathers (bias, transpose,
    slice and embedding look-up), pointwise functions, matrix products, and how to add and chain
    them. *)
From Coq Require Import Reals Lra FunctionalExtensionality.
From Coquelicot Require Import Coquelicot.
From Verif Require Import Base Spec Geometry Axis TensorSem MatOps MatProofs GemmProofs GemmRuns PropMat RSum AttnSpec PropFiber PropLoss CrossEntropy TapeMath.
Local Open Scope R_scope.
Local Close Scope Z_scope.
Local Open Scope R_scope.
Notation arr := TapeMath.arr.

(** [n] inputs of shapes [ish 0], [ish 1], ...; output of shape [osh]. *)
Definition tv (n : nat) (ish : nat -> list Z) (osh : list Z) (D : (nat -> arr) -> Prop) (F : (nat -> arr) -> arr)
    (dl : (nat -> arr) -> arr -> nat -> arr) : Prop :=
  forall (c : R -> nat -> arr) (c' : nat -> arr) (t0 : R), D (c t0) ->
    (forall j idx, (j < n)%nat -> inb (ish j) idx -> is_derive (fun t => c t j idx) t0 (c' j idx)) ->
    exists y' : arr,
      (forall idx, inb osh idx -> is_derive (fun t => F (c t) idx) t0 (y' idx)) /\
      forall gy, dot osh gy y' = Nsum n (fun j => dot (ish j) (dl (c t0) gy j) (c' j)).
Lemma tv_vjp shape l : tv (arity l) (fun j => shape (inp l j)) (shape (ml_out l)) (ml_D l) (ml_F l) (ml_dl l) -> vjp shape l.
Proof. exact (fun H => H). Qed.

(** The same through the derivative of <gy, F>. *)
Definition td (n : nat) (ish : nat -> list Z) (osh : list Z) (D : (nat -> arr) -> Prop) (F : (nat -> arr) -> arr)
    (dl : (nat -> arr) -> arr -> nat -> arr) : Prop :=
  forall (c : R -> nat -> arr) (c' : nat -> arr) (t0 : R) (gy : arr), D (c t0) ->
    (forall j idx, (j < n)%nat -> inb (ish j) idx -> is_derive (fun t => c t j idx) t0 (c' j idx)) ->
    is_derive (fun t => dot osh gy (F (c t))) t0 (Nsum n (fun j => dot (ish j) (dl (c t0) gy j) (c' j))).

Lemma is_derive_Rsuml {X} (l : list X) (f : X -> R -> R) (f' : X -> R) t0 :
  (forall i, In i l -> is_derive (f i) t0 (f' i)) -> is_derive (fun t => Rsuml l (fun i => f i t)) t0 (Rsuml l f').
Proof.
  induction l as [|i l IH]; intros H.
  - rewrite Rsuml_nil. apply (is_derive_ext (fun _ => 0)); [reflexivity|]. exact (is_derive_const (K := R_AbsRing) (V := R_NormedModule) 0 t0).
  - rewrite Rsuml_cons. apply (is_derive_ext (fun t => plus (f i t) (Rsuml l (fun i => f i t)))); [intros t; rewrite Rsuml_cons; reflexivity|].
    apply (is_derive_plus (K := R_AbsRing) (V := R_NormedModule)); [apply H; left; reflexivity|apply IH; intros; apply H; right; assumption].
Qed.
Lemma dot_ext sh f g f' g' : pos sh -> (forall i, inb sh i -> f i = f' i) -> (forall i, inb sh i -> g i = g' i) -> dot sh f g = dot sh f' g'.
Proof. intros Hp H1 H2. apply Rsuml_ext. intros i Hi. apply all_idx_In in Hi; [|assumption]. rewrite H1, H2 by assumption. reflexivity. Qed.
Lemma dot_delta_l sh f idx : pos sh -> inb sh idx -> dot sh (fun i => if list_eq_dec Z.eq_dec i idx then 1 else 0) f = f idx.
Proof.
  intros Hp Hi. rewrite <- (dot_delta sh f idx Hp Hi). apply Rsuml_ext. intros. ring.
Qed.
Lemma td_tv n ish osh D F dl : pos osh -> td n ish osh D F dl -> tv n ish osh D F dl.
Proof.
  intros Hp H c c' t0 HD Hc.
  set (y' := fun idx => Nsum n (fun j => dot (ish j) (dl (c t0) (fun i => if list_eq_dec Z.eq_dec i idx then 1 else 0) j) (c' j))).
  assert (Hy : forall idx, inb osh idx -> is_derive (fun t => F (c t) idx) t0 (y' idx)).
  { intros idx Hi. apply (is_derive_ext (fun t => dot osh (fun i => if list_eq_dec Z.eq_dec i idx then 1 else 0) (F (c t)))).
    - intros t. apply dot_delta_l; assumption.
    - apply H; assumption. }
  exists y'. split; [assumption|]. intros gy.
  pose proof (H c c' t0 gy HD Hc) as H1. apply is_derive_unique in H1. rewrite <- H1. symmetry. apply is_derive_unique. unfold dot.
  apply (is_derive_Rsuml (all_idx osh) (fun i t => gy i * F (c t) i)). intros i Hi. apply all_idx_In in Hi; [|assumption].
  apply is_derive_scal. apply Hy. assumption.
Qed.
Lemma tv_td n ish osh D F dl : pos osh -> tv n ish osh D F dl -> td n ish osh D F dl.
Proof.
  intros Hp H c c' t0 gy HD Hc. destruct (H c c' t0 HD Hc) as (y' & H1 & H2). rewrite <- H2. unfold dot.
  apply (is_derive_Rsuml (all_idx osh) (fun i t => gy i * F (c t) i)). intros i Hi. apply all_idx_In in Hi; [|assumption].
  apply is_derive_scal. apply H1. assumption.
Qed.

(** Only the values inside the arrays matter. *)
Lemma Nsum_ext n f g : (forall j, (j < n)%nat -> f j = g j) -> Nsum n f = Nsum n g.
Proof. intros H. apply Rsuml_ext. intros j Hj. apply in_seq in Hj. apply H. lia. Qed.
Lemma tv_ext n ish osh (D : (nat -> arr) -> Prop) (F : (nat -> arr) -> arr) (dl : (nat -> arr) -> arr -> nat -> arr) (F' : (nat -> arr) -> arr) (dl' : (nat -> arr) -> arr -> nat -> arr) : (forall j, (j < n)%nat -> pos (ish j)) ->
  (forall vs idx, inb osh idx -> F vs idx = F' vs idx) ->
  (forall vs gy j idx, D vs -> (j < n)%nat -> inb (ish j) idx -> dl vs gy j idx = dl' vs gy j idx) ->
  tv n ish osh D F dl -> tv n ish osh D F' dl'.
Proof.
  intros Hp HF Hd H c c' t0 HD Hc. destruct (H c c' t0 HD Hc) as (y' & H1 & H2). exists y'. split.
  - intros idx Hi. apply (is_derive_ext (fun t => F (c t) idx)); [intros; apply HF; assumption|apply H1; assumption].
  - intros gy. rewrite H2. apply Nsum_ext. intros j Hj. apply dot_ext; [apply Hp; assumption|intros; apply Hd; assumption|reflexivity].
Qed.

Definition sel (j0 : nat) (d : arr) : nat -> arr := fun j => if Nat.eq_dec j j0 then d else fun _ => 0.
Lemma Nsum_sel n ish j0 d c' : (j0 < n)%nat -> Nsum n (fun j => dot (ish j) (sel j0 d j) (c' j)) = dot (ish j0) d (c' j0).
Proof.
  intros Hj. unfold Nsum. rewrite (Rsuml_pick (seq 0 n) j0) by (apply seq_NoDup || (apply in_seq; lia)).
  rewrite Rsuml_0; [unfold sel; destruct (Nat.eq_dec j0 j0); [ring|congruence]|].
  intros j _. destruct (Nat.eq_dec j j0) as [|Hn]; [reflexivity|]. unfold sel. destruct (Nat.eq_dec j j0); [congruence|]. apply dot_0.
Qed.
Lemma Nsum_plus n f g : Nsum n (fun j => f j + g j) = Nsum n f + Nsum n g.
Proof. apply Rsuml_plus. Qed.

(** Sums *)
Lemma tv_plus n ish osh D F1 F2 dl1 dl2 : tv n ish osh D F1 dl1 -> tv n ish osh D F2 dl2 ->
  tv n ish osh D (fun vs idx => F1 vs idx + F2 vs idx) (fun vs gy j idx => dl1 vs gy j idx + dl2 vs gy j idx).
Proof.
  intros A1 A2 c c' t0 HD Hc. destruct (A1 c c' t0 HD Hc) as (y1 & H1 & H2). destruct (A2 c c' t0 HD Hc) as (y2 & H3 & H4).
  exists (fun i => y1 i + y2 i). split.
  - intros idx Hi. apply (is_derive_plus (K := R_AbsRing) (V := R_NormedModule)); [apply H1|apply H3]; assumption.
  - intros gy. transitivity (dot osh gy y1 + dot osh gy y2).
    { unfold dot. rewrite <- Rsuml_plus. apply Rsuml_ext. intros. ring. }
    rewrite H2, H4, <- Nsum_plus. apply Nsum_ext. intros j _. symmetry. apply dot_plus.
Qed.

(** Sum of [g] over the positions sent to [k] by [p]. *)
Definition pre (sh : list Z) (p : list Z -> list Z) (g : arr) (k : list Z) : R :=
  Rsuml (all_idx sh) (fun i => if list_eq_dec Z.eq_dec (p i) k then g i else 0).
Lemma pre_dot osh ish p (g h : arr) : pos ish -> (forall i, In i (all_idx osh) -> inb ish (p i)) ->
  Rsuml (all_idx osh) (fun i => g i * h (p i)) = dot ish (pre osh p g) h.
Proof.
  intros Hp H. unfold dot, pre.
  transitivity (Rsuml (all_idx ish) (fun k => Rsuml (all_idx osh) (fun i => (if list_eq_dec Z.eq_dec (p i) k then g i else 0) * h k))).
  - rewrite Rsuml_swap. apply Rsuml_ext. intros i Hi. specialize (H i Hi).
    rewrite <- (dot_delta ish h (p i) Hp H). unfold dot. rewrite <- Rsuml_scal. apply Rsuml_ext. intros k _.
    destruct (list_eq_dec Z.eq_dec (p i) k), (list_eq_dec Z.eq_dec k (p i)); try congruence; ring.
  - apply Rsuml_ext. intros k _. rewrite (Rmult_comm _ (h k)), <- Rsuml_scal. apply Rsuml_ext. intros. ring.
Qed.
(** y\[i\] = x\[p i\] *)
Lemma tv_gather n ish osh D j0 p : (j0 < n)%nat -> pos (ish j0) -> pos osh -> (forall i, inb osh i -> inb (ish j0) (p i)) ->
  tv n ish osh D (fun vs i => vs j0 (p i)) (fun _ gy => sel j0 (pre osh p gy)).
Proof.
  intros Hj Hp Ho H c c' t0 HD Hc. exists (fun i => c' j0 (p i)). split.
  - intros idx Hi. apply Hc; auto.
  - intros gy. rewrite Nsum_sel by assumption. apply (pre_dot osh (ish j0) p gy (c' j0)); [assumption|]. intros i Hi. apply H. apply all_idx_In; assumption.
Qed.
(** y\[i\] = phi (x\[i\]) *)
Lemma tv_pointwise n ish osh (D : (nat -> arr) -> Prop) j0 (phi phi' : R -> R) : (j0 < n)%nat -> ish j0 = osh -> pos osh ->
  (forall vs i, D vs -> inb osh i -> is_derive phi (vs j0 i) (phi' (vs j0 i))) ->
  tv n ish osh D (fun vs i => phi (vs j0 i)) (fun vs gy => sel j0 (fun i => phi' (vs j0 i) * gy i)).
Proof.
  intros Hj Ho Hp H c c' t0 HD Hc. exists (fun i => phi' (c t0 j0 i) * c' j0 i). split.
  - intros idx Hi. rewrite Rmult_comm. apply (is_derive_comp phi (fun t => c t j0 idx)).
    + apply H; assumption.
    + apply Hc; [assumption|]. rewrite Ho. assumption.
  - intros gy. rewrite Nsum_sel by assumption. rewrite Ho. apply Rsuml_ext. intros. ring.
Qed.

(** ** Sums over appended shapes *)
Lemma Rsuml_all_cons d sh f : pos (d :: sh) -> Rsuml (all_idx (d :: sh)) f = Rsuml (all_idx sh) (fun i => Rsum d (fun c => f (c :: i))).
Proof.
  intros Hp. assert (L : (0 <= 0 < zlen (d :: sh))%Z) by (rewrite zlen_cons; pose proof (zlen_nonneg sh); lia).
  pose proof (Rsuml_axis (d :: sh) 0 (fun c i => f (c :: i)) Hp L) as H.
  change (del 0 (d :: sh)) with sh in H. change (zn (d :: sh) 0) with d in H. rewrite <- H. apply Rsuml_ext. intros idx Hi.
  apply all_idx_In in Hi; [|assumption]. inversion Hi as [|? c ? i]; subst. reflexivity.
Qed.
Lemma Rsuml_all_nil f : Rsuml (all_idx []) f = f [].
Proof. change (all_idx []) with [@nil Z]. rewrite Rsuml_cons, Rsuml_nil. ring. Qed.
Lemma Rsuml_all_app s1 s2 f : pos (s1 ++ s2) -> Rsuml (all_idx (s1 ++ s2)) f = Rsuml (all_idx s1) (fun a => Rsuml (all_idx s2) (fun b => f (a ++ b))).
Proof.
  revert f. induction s1 as [|d s1 IH]; intros f Hp.
  - rewrite Rsuml_all_nil. reflexivity.
  - cbn [app] in *. rewrite Rsuml_all_cons by assumption. inversion Hp; subst.
    rewrite IH by assumption.
    rewrite (Rsuml_all_cons d s1) by (constructor; [assumption|]; unfold pos in *; rewrite Forall_app in *; tauto).
    apply Rsuml_ext. intros a _. unfold Rsum. rewrite PropLoss.Rsuml_swap. reflexivity.
Qed.
Lemma pos_op tr (x y b : list Z) : pos x -> pos y -> pos b -> pos (op_dims tr x y b).
Proof. intros. unfold pos in *. destruct tr; cbn; rewrite ?Forall_app; auto. Qed.
Lemma Rsuml_op tr x y b f : pos x -> pos y -> pos b ->
  Rsuml (all_idx (op_dims tr x y b)) f = Rsuml (all_idx x) (fun i => Rsuml (all_idx y) (fun j => Rsuml (all_idx b) (fun k => f (op_dims tr i j k)))).
Proof.
  intros Hx Hy Hb. pose proof (pos_op tr x y b Hx Hy Hb) as Hp. destruct tr; unfold op_dims in *.
  - rewrite Rsuml_all_app by assumption. rewrite Rsuml_all_app by (unfold pos in *; rewrite Forall_app in *; tauto).
    reflexivity.
  - rewrite Rsuml_all_app by assumption. rewrite Rsuml_all_app by (unfold pos in *; rewrite Forall_app in *; tauto).
    rewrite PropLoss.Rsuml_swap. reflexivity.
Qed.

(** ** Matrix products *)
(** Entry [idx] = mi ++ ni ++ bi of the product of A (rows mi, columns ki, batch bi, possibly
    transposed) and B (rows ki, columns ni). *)
Definition matmul (sm sk sn : list Z) (tA tB : transop) (a b : arr) (idx : list Z) : R :=
  let mi := firstn (List.length sm) idx in
  let ni := firstn (List.length sn) (skipn (List.length sm) idx) in
  let bi := skipn (List.length sn) (skipn (List.length sm) idx) in
  Rsuml (all_idx sk) (fun ki => a (op_dims tA mi ki bi) * b (op_dims tB ki ni bi)).
Lemma inb_len (sh idx : list Z) : inb sh idx -> List.length idx = List.length sh.
Proof. intros H. induction H; cbn; congruence. Qed.
Lemma split3 {X} (mi ni bi : list X) a b : List.length mi = a -> List.length ni = b ->
  firstn a (mi ++ ni ++ bi) = mi /\ firstn b (skipn a (mi ++ ni ++ bi)) = ni /\ skipn b (skipn a (mi ++ ni ++ bi)) = bi.
Proof.
  intros <- <-. rewrite firstn_app, Nat.sub_diag, firstn_all, firstn_O, app_nil_r.
  rewrite skipn_app, Nat.sub_diag, skipn_all. cbn [app skipn].
  rewrite firstn_app, Nat.sub_diag, firstn_all, firstn_O, app_nil_r. rewrite skipn_app, Nat.sub_diag, skipn_all. repeat split; reflexivity.
Qed.
Lemma matmul_at sm sk sn tA tB a b mi ni bi : inb sm mi -> inb sn ni ->
  matmul sm sk sn tA tB a b (mi ++ ni ++ bi) = Rsuml (all_idx sk) (fun ki => a (op_dims tA mi ki bi) * b (op_dims tB ki ni bi)).
Proof.
  intros H1 H2. unfold matmul. destruct (split3 mi ni bi (List.length sm) (List.length sn)) as (-> & -> & ->); try (apply inb_len; assumption). reflexivity.
Qed.

Lemma tv_matmul n ish osh D j1 j2 al tA tB sm sk sn sb (F : (nat -> arr) -> arr) (d1 d2 : (nat -> arr) -> arr -> arr) : (j1 < n)%nat -> (j2 < n)%nat ->
  pos sm -> pos sk -> pos sn -> pos sb ->
  ish j1 = op_dims tA sm sk sb -> ish j2 = op_dims tB sk sn sb -> osh = sm ++ sn ++ sb ->
  (forall vs mi ni bi, inb sm mi -> inb sn ni -> inb sb bi -> F vs (mi ++ ni ++ bi) =
     al * Rsuml (all_idx sk) (fun ki => vs j1 (op_dims tA mi ki bi) * vs j2 (op_dims tB ki ni bi))) ->
  (forall vs gy mi ki bi, inb sm mi -> inb sk ki -> inb sb bi -> d1 vs gy (op_dims tA mi ki bi) =
     al * Rsuml (all_idx sn) (fun ni => gy (mi ++ ni ++ bi) * vs j2 (op_dims tB ki ni bi))) ->
  (forall vs gy ki ni bi, inb sk ki -> inb sn ni -> inb sb bi -> d2 vs gy (op_dims tB ki ni bi) =
     al * Rsuml (all_idx sm) (fun mi => gy (mi ++ ni ++ bi) * vs j1 (op_dims tA mi ki bi))) ->
  tv n ish osh D F (fun vs gy j idx => sel j1 (d1 vs gy) j idx + sel j2 (d2 vs gy) j idx).
Proof.
  intros Hj1 Hj2 Pm Pk Pn Pb E1 E2 Eo HF H1 H2.
  assert (Po : pos osh) by (subst osh; unfold pos in *; rewrite !Forall_app; auto).
  assert (Inb : forall l i, pos l -> In i (all_idx l) -> inb l i) by (intros l i Hp Hi; apply all_idx_In; assumption).
  assert (Iop : forall tr x y b i j k, inb x i -> inb y j -> inb b k -> inb (op_dims tr x y b) (op_dims tr i j k)).
  { intros tr x y b i j k A1 A2 A3. destruct tr; cbn; repeat apply inb_app; assumption. }
  apply td_tv; [assumption|]. intros c c' t0 gy HD Hc.
  set (a := c t0 j1). set (b := c t0 j2). set (a' := c' j1). set (b' := c' j2).
  assert (Ed : forall t, dot osh gy (F (c t)) = Rsuml (all_idx sm) (fun mi => Rsuml (all_idx sn) (fun ni => Rsuml (all_idx sb) (fun bi =>
     gy (mi ++ ni ++ bi) * (al * Rsuml (all_idx sk) (fun ki => c t j1 (op_dims tA mi ki bi) * c t j2 (op_dims tB ki ni bi))))))).
  { intros t. unfold dot. subst osh. rewrite Rsuml_all_app by assumption.
    apply Rsuml_ext. intros mi Hmi. rewrite Rsuml_all_app by (unfold pos in *; rewrite Forall_app in *; tauto).
    apply Rsuml_ext. intros ni Hni. apply Rsuml_ext. intros bi Hbi. rewrite HF by auto. reflexivity. }
  apply (is_derive_ext _ _ t0 _ (fun t => eq_sym (Ed t))).
  assert (Er : Nsum n (fun j => dot (ish j) (fun idx => sel j1 (d1 (c t0) gy) j idx + sel j2 (d2 (c t0) gy) j idx) (c' j)) =
    Rsuml (all_idx sm) (fun mi => Rsuml (all_idx sn) (fun ni => Rsuml (all_idx sb) (fun bi => gy (mi ++ ni ++ bi) * (al * Rsuml (all_idx sk) (fun ki =>
      a' (op_dims tA mi ki bi) * b (op_dims tB ki ni bi) + a (op_dims tA mi ki bi) * b' (op_dims tB ki ni bi))))))).
  { rewrite (Nsum_ext n _ (fun j => dot (ish j) (sel j1 (d1 (c t0) gy) j) (c' j) + dot (ish j) (sel j2 (d2 (c t0) gy) j) (c' j)))
      by (intros; apply dot_plus).
    rewrite Nsum_plus, !Nsum_sel by assumption. fold a' b'. rewrite E1, E2. unfold dot. rewrite !Rsuml_op by assumption.
    symmetry.
    transitivity (Rsuml (all_idx sm) (fun mi => Rsuml (all_idx sn) (fun ni => Rsuml (all_idx sb) (fun bi => Rsuml (all_idx sk) (fun ki =>
       gy (mi ++ ni ++ bi) * al * a' (op_dims tA mi ki bi) * b (op_dims tB ki ni bi))))) +
      Rsuml (all_idx sm) (fun mi => Rsuml (all_idx sn) (fun ni => Rsuml (all_idx sb) (fun bi => Rsuml (all_idx sk) (fun ki =>
       gy (mi ++ ni ++ bi) * al * a (op_dims tA mi ki bi) * b' (op_dims tB ki ni bi)))))).
    { rewrite <- Rsuml_plus. apply Rsuml_ext. intros mi _. rewrite <- Rsuml_plus. apply Rsuml_ext. intros ni _.
      rewrite <- Rsuml_plus. apply Rsuml_ext. intros bi _. rewrite <- Rsuml_plus. rewrite <- Rmult_assoc, <- Rsuml_scal. apply Rsuml_ext. intros. ring. }
    f_equal.
    - apply Rsuml_ext. intros mi Hmi.
      transitivity (Rsuml (all_idx sk) (fun ki => Rsuml (all_idx sb) (fun bi => Rsuml (all_idx sn) (fun ni =>
        gy (mi ++ ni ++ bi) * al * a' (op_dims tA mi ki bi) * b (op_dims tB ki ni bi))))).
      { transitivity (Rsuml (all_idx sn) (fun ni => Rsuml (all_idx sk) (fun ki => Rsuml (all_idx sb) (fun bi =>
          gy (mi ++ ni ++ bi) * al * a' (op_dims tA mi ki bi) * b (op_dims tB ki ni bi))))).
        - apply Rsuml_ext. intros ni _. apply PropLoss.Rsuml_swap.
        - rewrite PropLoss.Rsuml_swap. apply Rsuml_ext. intros ki _. apply PropLoss.Rsuml_swap. }
      apply Rsuml_ext. intros ki Hki. apply Rsuml_ext. intros bi Hbi. rewrite H1 by auto. fold b.
      rewrite (Rmult_comm (al * _)), <- Rmult_assoc, <- Rsuml_scal. apply Rsuml_ext. intros. ring.
    - transitivity (Rsuml (all_idx sk) (fun ki => Rsuml (all_idx sm) (fun mi => Rsuml (all_idx sn) (fun ni => Rsuml (all_idx sb) (fun bi =>
        gy (mi ++ ni ++ bi) * al * a (op_dims tA mi ki bi) * b' (op_dims tB ki ni bi)))))).
      { rewrite (PropLoss.Rsuml_swap (all_idx sk)). apply Rsuml_ext. intros mi _. rewrite (PropLoss.Rsuml_swap (all_idx sk)). apply Rsuml_ext. intros ni _.
        apply PropLoss.Rsuml_swap. }
      apply Rsuml_ext. intros ki Hki. rewrite PropLoss.Rsuml_swap. apply Rsuml_ext. intros ni Hni. rewrite PropLoss.Rsuml_swap.
      apply Rsuml_ext. intros bi Hbi. rewrite H2 by auto. fold a.
      rewrite (Rmult_comm (al * _)), <- Rmult_assoc, <- Rsuml_scal. apply Rsuml_ext. intros. ring. }
  rewrite Er.
  apply (is_derive_Rsuml (all_idx sm) (fun mi t => Rsuml (all_idx sn) (fun ni => Rsuml (all_idx sb) (fun bi =>
     gy (mi ++ ni ++ bi) * (al * Rsuml (all_idx sk) (fun ki => c t j1 (op_dims tA mi ki bi) * c t j2 (op_dims tB ki ni bi))))))). intros mi Hmi.
  apply (is_derive_Rsuml (all_idx sn) (fun ni t => Rsuml (all_idx sb) (fun bi =>
     gy (mi ++ ni ++ bi) * (al * Rsuml (all_idx sk) (fun ki => c t j1 (op_dims tA mi ki bi) * c t j2 (op_dims tB ki ni bi)))))). intros ni Hni.
  apply (is_derive_Rsuml (all_idx sb) (fun bi t =>
     gy (mi ++ ni ++ bi) * (al * Rsuml (all_idx sk) (fun ki => c t j1 (op_dims tA mi ki bi) * c t j2 (op_dims tB ki ni bi))))). intros bi Hbi.
  apply is_derive_scal. apply is_derive_scal.
  apply (is_derive_Rsuml (all_idx sk) (fun ki t => c t j1 (op_dims tA mi ki bi) * c t j2 (op_dims tB ki ni bi))). intros ki Hki.
  apply (is_derive_mult (K := R_AbsRing) (fun t => c t j1 (op_dims tA mi ki bi)) (fun t => c t j2 (op_dims tB ki ni bi))).
  - apply Hc; [assumption|]. rewrite E1. apply Iop; auto.
  - apply Hc; [assumption|]. rewrite E2. apply Iop; auto.
  - intros. apply Rmult_comm.
Qed.

(** ** Composite layers *)
Definition clip (n : nat) (vs : nat -> arr) : nat -> arr := fun k => if lt_dec k n then vs k else fun _ => 0.
Definition at_out (o : nat) (gy : arr) : nat -> arr := fun k => if Nat.eq_dec k o then gy else fun _ => 0.
(** A tape of layers from the inputs 0 ... n-1 through inner nodes n ... m-1 to node [o]. *)
Lemma tv_tape n m ish ls o : (forall k, (k < m)%nat -> pos (ish k)) -> Forall (vjp ish) ls -> ssa ls ->
  (forall k, In k (outs ls) -> (n <= k < m)%nat) -> (forall k, (n <= k < m)%nat -> In k (outs ls)) ->
  (forall l j, In l ls -> (j < arity l)%nat -> (inp l j < m)%nat) -> In o (outs ls) ->
  tv n ish (ish o) (fun vs => dom ls (clip n vs)) (fun vs => eval ls (clip n vs) o)
    (fun vs gy j => back ls (clip n vs) (at_out o gy) j).
Proof.
  intros Hp HV HS HO HO' HI Ho c c' t0 HD Hc.
  destruct (back_pairing ish (seq 0 m) (seq_NoDup m 0) ls HV HS) with (e := fun t => clip n (c t)) (e' := clip n c') (t0 := t0) as (f' & F1 & F2 & F3).
  - intros k Hk. apply in_seq. specialize (HO k Hk). lia.
  - intros l j Hl Hj. apply in_seq. specialize (HI l j Hl Hj). lia.
  - assumption.
  - intros k idx Hk Hi. unfold clip. destruct (lt_dec k n); [apply Hc; assumption|apply (is_derive_const (K := R_AbsRing) (V := R_NormedModule))].
  - assert (Hom : (o < m)%nat) by (specialize (HO o Ho); lia).
    exists (f' o). split.
    { intros idx Hi. apply F1; [apply in_seq; lia|assumption]. }
    intros gy. specialize (F3 (at_out o gy)).
    rewrite (Rsuml_pick (seq 0 m) o) in F3 by (apply seq_NoDup || (apply in_seq; lia)).
    rewrite Rsuml_0 in F3.
    2:{ intros k _. destruct (Nat.eq_dec k o) as [|Hk]; [reflexivity|]. unfold at_out. destruct (Nat.eq_dec k o); [congruence|]. apply dot_0. }
    unfold at_out at 1 in F3. destruct (Nat.eq_dec o o); [|congruence]. rewrite Rplus_0_r in F3. rewrite F3. unfold pairing, Nsum.
    assert (Em : (n <= m)%nat) by (specialize (HO o Ho); lia).
    assert (Es : seq 0 m = seq 0 n ++ seq n (m - n)).
    { replace m with (n + (m - n))%nat at 1 by lia. rewrite seq_app. reflexivity. }
    rewrite Es, Rsuml_app. rewrite (Rsuml_0 (seq n (m - n))).
    + rewrite Rplus_0_r. apply Rsuml_ext. intros k Hk. apply in_seq in Hk. unfold notin. destruct (in_dec Nat.eq_dec k (outs ls)) as [Hin|Hin].
      { specialize (HO k Hin). lia. }
      cbn [negb]. unfold clip at 2. destruct (lt_dec k n); [reflexivity|lia].
    + intros k Hk. apply in_seq in Hk. unfold notin. destruct (in_dec Nat.eq_dec k (outs ls)) as [Hin|Hin]; [reflexivity|].
      exfalso. apply Hin, HO'. lia.
Qed.
