(** * Finite sums of real numbers, and sums split into tiles *)
From Coq Require Import Reals Lra Permutation.
From Verif Require Import Base Spec Geometry Traits TraitsProofs Runtime TensorSem ElemGeneric Concrete.
Local Open Scope R_scope.

(** Sum of f over a list; sum of f 0 ... f (n-1). *)
Definition Rsuml {A} (l : list A) (f : A -> R) : R := fold_right (fun x a => f x + a) 0 l.
Definition Rsum (n : Z) (f : Z -> R) : R := Rsuml (zrange n) f.
(** All coordinates of an array. *)
Definition all_idx (shape : list Z) : list (list Z) := map (unoff shape) (zrange (prodZ shape)).

Section Suml.
Context {A : Type}.
Implicit Types (l : list A) (f g : A -> R).
Lemma Rsuml_nil f : Rsuml [] f = 0. Proof. reflexivity. Qed.
Lemma Rsuml_cons x l f : Rsuml (x :: l) f = f x + Rsuml l f. Proof. reflexivity. Qed.
Lemma Rsuml_app l1 l2 f : Rsuml (l1 ++ l2) f = Rsuml l1 f + Rsuml l2 f.
Proof. induction l1; [unfold Rsuml; simpl; lra|]. cbn [app]. rewrite !Rsuml_cons, IHl1. lra. Qed.
Lemma Rsuml_ext l f g : (forall x, In x l -> f x = g x) -> Rsuml l f = Rsuml l g.
Proof.
  induction l; intros H; [reflexivity|]. rewrite !Rsuml_cons, H by (left; reflexivity). f_equal. apply IHl.
  intros; apply H; right; assumption.
Qed.
Lemma Rsuml_plus l f g : Rsuml l (fun x => f x + g x) = Rsuml l f + Rsuml l g.
Proof. induction l; [unfold Rsuml; simpl; lra|]. rewrite !Rsuml_cons, IHl. lra. Qed.
Lemma Rsuml_scal l c f : Rsuml l (fun x => c * f x) = c * Rsuml l f.
Proof. induction l; [unfold Rsuml; simpl; lra|]. rewrite !Rsuml_cons, IHl. lra. Qed.
Lemma Rsuml_0 l f : (forall x, In x l -> f x = 0) -> Rsuml l f = 0.
Proof.
  induction l; intros H; [reflexivity|]. rewrite Rsuml_cons, H by (left; reflexivity). rewrite IHl; [lra|].
  intros; apply H; right; assumption.
Qed.
Lemma Rsuml_nonneg l f : (forall x, In x l -> 0 <= f x) -> 0 <= Rsuml l f.
Proof.
  induction l; intros H; [unfold Rsuml; simpl; lra|]. rewrite Rsuml_cons.
  pose proof (H a ltac:(left; reflexivity)). pose proof (IHl (fun x Hx => H x (or_intror Hx))). lra.
Qed.
Lemma Rsuml_pos l f : l <> [] -> (forall x, In x l -> 0 < f x) -> 0 < Rsuml l f.
Proof.
  destruct l as [|a l]; [tauto|]. intros _ H. rewrite Rsuml_cons.
  pose proof (H a ltac:(left; reflexivity)).
  pose proof (Rsuml_nonneg l f (fun x Hx => Rlt_le _ _ (H x (or_intror Hx)))). lra.
Qed.
Lemma Rsuml_perm l1 l2 f : Permutation l1 l2 -> Rsuml l1 f = Rsuml l2 f.
Proof. induction 1; rewrite ?Rsuml_cons; try lra. Qed.
Lemma Rsuml_const l c : Rsuml l (fun _ => c) = INR (List.length l) * c.
Proof.
  induction l; [unfold Rsuml; simpl; lra|]. rewrite Rsuml_cons, IHl.
  change (List.length (a :: l)) with (Datatypes.S (List.length l)). rewrite S_INR. lra.
Qed.
(** zero iff all terms are zero *)
Lemma Rsuml_0_inv l f : (forall x, In x l -> 0 <= f x) -> Rsuml l f = 0 -> forall x, In x l -> f x = 0.
Proof.
  induction l; intros H E x []; rewrite Rsuml_cons in E;
  pose proof (H a ltac:(left; reflexivity)); pose proof (Rsuml_nonneg l f (fun x Hx => H x (or_intror Hx))).
  - subst. lra.
  - apply IHl; [intros; apply H; right; assumption|lra|assumption].
Qed.
End Suml.
Lemma Rsuml_map {A B} (h : A -> B) l f : Rsuml (map h l) f = Rsuml l (fun x => f (h x)).
Proof. induction l; [reflexivity|]. cbn [map]. rewrite !Rsuml_cons, IHl. reflexivity. Qed.
Lemma Rsuml_flat {A B} (h : A -> list B) l f : Rsuml (flat_map h l) f = Rsuml l (fun x => Rsuml (h x) f).
Proof. induction l; [reflexivity|]. cbn [flat_map]. rewrite Rsuml_app, Rsuml_cons, IHl. reflexivity. Qed.

Lemma Rsum_ext n f g : (forall i, (0 <= i < n)%Z -> f i = g i) -> Rsum n f = Rsum n g.
Proof. intros H. apply Rsuml_ext. intros x Hx. apply H. apply zrange_In. assumption. Qed.
Lemma Rsum_succ n f : (0 <= n)%Z -> Rsum (n + 1) f = Rsum n f + f n.
Proof. intros H. unfold Rsum. rewrite zrange_succ, Rsuml_app by assumption. unfold Rsuml at 2. simpl. lra. Qed.
Lemma Rsum_neg n f : (n <= 0)%Z -> Rsum n f = 0.
Proof. intros H. unfold Rsum. rewrite zrange_neg by assumption. reflexivity. Qed.
Lemma Rsum_const n c : (0 <= n)%Z -> Rsum n (fun _ => c) = IZR n * c.
Proof.
  intros H. unfold Rsum. rewrite Rsuml_const. f_equal. rewrite INR_IZR_INZ. f_equal.
  pose proof (zlen_zrange n H). unfold zlen in *. assumption.
Qed.

(** Tiles of [0, s): each number is in exactly one tile, in order. *)
Lemma zrange_app a b : (0 <= a)%Z -> (0 <= b)%Z -> zrange (a + b) = zrange a ++ map (fun l => (a + l)%Z) (zrange b).
Proof.
  intros Ha Hb. revert b Hb. apply natlike_ind.
  - rewrite Z.add_0_r. rewrite (zrange_neg 0) by lia. simpl. rewrite app_nil_r. reflexivity.
  - intros b Hb IH. unfold Z.succ. rewrite Z.add_assoc. rewrite !zrange_succ by lia. rewrite IH.
    rewrite map_app, app_assoc. reflexivity.
Qed.
Lemma zrange_tiles s b : (0 < s)%Z -> (0 < b)%Z ->
  flat_map (fun j => map (fun l => (j * b + l)%Z) (zrange (Z.min b (s - j * b)))) (zrange ((s + b - 1) / b)) = zrange s.
Proof.
  intros Hs Hb. set (g := ((s + b - 1) / b)%Z).
  assert (Hg : (0 <= g /\ (g - 1) * b < s <= g * b)%Z).
  { unfold g. pose proof (Z.div_mod (s + b - 1) b ltac:(lia)). pose proof (Z.mod_pos_bound (s + b - 1) b ltac:(lia)).
    assert (0 <= (s + b - 1) / b)%Z by (apply Z.div_pos; lia). split; [assumption|]. split; nia. }
  assert (G : forall k, (0 <= k)%Z -> (k <= g)%Z ->
    flat_map (fun j => map (fun l => (j * b + l)%Z) (zrange (Z.min b (s - j * b)))) (zrange k) = zrange (Z.min s (k * b))).
  { intros k0 Hk0. pattern k0. apply natlike_ind; [| |assumption].
    - intros _. rewrite (zrange_neg 0), (zrange_neg (Z.min s (0 * b))) by lia. reflexivity.
    - intros k Hk IH Hkg. unfold Z.succ in *. rewrite zrange_succ by assumption. rewrite flat_map_app. cbn [flat_map].
      rewrite app_nil_r, IH by lia.
      assert (Hkb : (k * b < s)%Z) by nia.
      rewrite (Z.min_r s (k * b)) by lia.
      rewrite <- zrange_app; [|nia|lia]. f_equal. lia. }
  rewrite G by lia. f_equal. lia.
Qed.
Theorem Rsum_tiles s b f : (0 < s)%Z -> (0 < b)%Z ->
  Rsum ((s + b - 1) / b) (fun j => Rsum (Z.min b (s - j * b)) (fun l => f (j * b + l)%Z)) = Rsum s f.
Proof.
  intros Hs Hb. unfold Rsum at 1 3. rewrite <- (zrange_tiles s b Hs Hb). rewrite Rsuml_flat.
  apply Rsuml_ext. intros j _. unfold Rsum. rewrite Rsuml_map. reflexivity.
Qed.

(** Elements of an array. *)
Lemma all_idx_In shape idx : pos shape -> In idx (all_idx shape) <-> inb shape idx.
Proof.
  intros Hp. unfold all_idx. rewrite in_map_iff. split.
  - intros (o & <- & Ho). apply unoff_inb; [assumption|]. apply zrange_In. assumption.
  - intros Hi. exists (off shape idx). split; [apply unoff_off; assumption|]. apply zrange_In. apply off_bound. assumption.
Qed.
Lemma NoDup_all_idx shape : pos shape -> NoDup (all_idx shape).
Proof.
  intros Hp. unfold all_idx. pose proof (NoDup_zrange (prodZ shape)) as H.
  assert (G : forall l, (forall x, In x l -> (0 <= x < prodZ shape)%Z) -> NoDup l -> NoDup (map (unoff shape) l)).
  { induction l as [|x l IH]; intros Hl Hn; simpl; constructor.
    - intros Hin. apply in_map_iff in Hin as (y & E & Hy). inversion Hn; subst.
      assert (y = x). { rewrite <- (off_unoff shape y), <- (off_unoff shape x), E; auto; apply Hl; simpl; auto. }
      subst; contradiction.
    - inversion Hn; subst. apply IH; auto. intros; apply Hl; right; assumption. }
  apply G; [|assumption]. intros x Hx. apply zrange_In. assumption.
Qed.

(** Elements of a tensor, listed tile by tile. *)
Definition by_tiles (t : tensor) : list (list Z) :=
  flat_map (fun i => map (eidx t i) (zrange (tsz t i))) (zrange (ntiles t)).
Lemma by_tiles_perm t : wft t -> Permutation (by_tiles t) (all_idx (t_shape t)).
Proof.
  intros Ht. assert (Hp : pos (t_shape t)) by (apply wf_ps; assumption). apply NoDup_Permutation.
  - unfold by_tiles.
    assert (G : forall l, NoDup l -> (forall x, In x l -> (0 <= x < ntiles t)%Z) ->
      NoDup (flat_map (fun i => map (eidx t i) (zrange (tsz t i))) l)).
    { induction l as [|x l IH]; intros Hn Hl; [constructor|]. cbn [flat_map]. inversion Hn; subst.
      assert (Hx : (0 <= x < ntiles t)%Z) by (apply Hl; left; reflexivity).
      assert (D : forall a b : list (list Z), NoDup a -> NoDup b -> (forall y, In y a -> ~ In y b) -> NoDup (a ++ b)).
      { clear. induction a as [|y a IH]; intros b Ha Hb Hd; [assumption|]. inversion Ha; subst. simpl. constructor.
        - intros Hin. apply in_app_or in Hin as [Hin|Hin]; [contradiction|]. apply (Hd y); simpl; auto.
        - apply IH; auto. intros z Hz. apply Hd. right; assumption. }
      apply D.
      - assert (G : forall k, NoDup k -> (forall o, In o k -> (0 <= o < tsz t x)%Z) -> NoDup (map (eidx t x) k)).
        { induction k as [|o k IHk]; intros Hk Hk'; simpl; constructor.
          - intros Hin. apply in_map_iff in Hin as (o' & E & Ho'). inversion Hk; subst.
            destruct (eidx_spec t x o Ht Hx) as (_ & _ & E1); [apply Hk'; left; reflexivity|].
            destruct (eidx_spec t x o' Ht Hx) as (_ & _ & E2); [apply Hk'; right; assumption|].
            rewrite E in E2. congruence.
          - inversion Hk; subst. apply IHk; auto. intros; apply Hk'; right; assumption. }
        apply G; [apply NoDup_zrange|]. intros o Ho. apply zrange_In. assumption.
      - apply IH; [assumption|]. intros; apply Hl; right; assumption.
      - intros y Hy Hy'. apply in_map_iff in Hy as (o & <- & Ho). apply zrange_In in Ho.
        apply in_flat_map in Hy' as (x' & Hx' & Hin). apply in_map_iff in Hin as (o' & E & Ho'). apply zrange_In in Ho'.
        destruct (eidx_spec t x o Ht Hx Ho) as (_ & E1 & _).
        destruct (eidx_spec t x' o' Ht (Hl x' (or_intror Hx')) Ho') as (_ & E2 & _).
        rewrite E in E2. assert (Exx : x = x') by congruence. rewrite <- Exx in Hx'. contradiction. }
    apply G; [apply NoDup_zrange|]. intros x Hx. apply zrange_In. assumption.
  - apply NoDup_all_idx. assumption.
  - intros idx. rewrite all_idx_In by assumption. unfold by_tiles. rewrite in_flat_map. split.
    + intros (i & Hi & Hin). apply zrange_In in Hi. apply in_map_iff in Hin as (o & <- & Ho). apply zrange_In in Ho.
      apply eidx_spec; assumption.
    + intros Hi. pose proof (etile_bound t idx Ht Hi) as B. pose proof (eoff_bound t idx Ht Hi) as B'.
      exists (etile t idx). split; [apply zrange_In; assumption|]. apply in_map_iff. exists (eoff t idx).
      split; [|apply zrange_In; assumption].
      apply eidx_of; assumption.
Qed.
Theorem Rsum_by_tiles t f : wft t ->
  Rsum (ntiles t) (fun i => Rsum (tsz t i) (fun o => f (eidx t i o))) = Rsuml (all_idx (t_shape t)) f.
Proof.
  intros Ht. rewrite <- (Rsuml_perm _ _ _ (by_tiles_perm t Ht)). unfold by_tiles. rewrite Rsuml_flat.
  apply Rsuml_ext. intros i _. rewrite Rsuml_map. reflexivity.
Qed.
