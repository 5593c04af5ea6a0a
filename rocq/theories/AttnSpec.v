(** * Specification of masked scaled-dot-product attention over the reals, and its derivatives

    Arrays are functions of coordinate lists [d; position; batch; head].  The mask is indexed by
    [key; query].  Nothing here refers to tiles or to the code. *)
From Coq Require Import Reals Lra.
From Coquelicot Require Import Coquelicot.
From Verif Require Import Base RSum.
Local Open Scope R_scope.

Definition arr := list Z -> R.
(** [f] with the value at [idx] replaced by [t] *)
Definition upd (f : arr) (idx : list Z) (t : R) : arr := fun i => if list_eq_dec Z.eq_dec i idx then t else f i.

Section Attention.
(** head size, sequence length, batch size, number of heads, mask *)
Variables (h n nb nh : Z) (m : list Z -> bool).

(** scaled score of key j for query i *)
Definition ascore (K Q : arr) (j i x y : Z) : R := Rsum h (fun d => K [d; j; x; y] * Q [d; i; x; y]) / sqrt (IZR h).
(** soft-max over the keys that the mask allows *)
Definition adenom (K Q : arr) (i x y : Z) : R := Rsum n (fun j => if m [j; i] then exp (ascore K Q j i x y) else 0).
Definition aweight (K Q : arr) (j i x y : Z) : R := if m [j; i] then exp (ascore K Q j i x y) / adenom K Q i x y else 0.
Definition attention (K Q V : arr) (d i x y : Z) : R := Rsum n (fun j => V [d; j; x; y] * aweight K Q j i x y).
(** <G, attention> *)
Definition aloss (K Q V G : arr) : R :=
  Rsum nh (fun y => Rsum nb (fun x => Rsum n (fun i => Rsum h (fun d => G [d; i; x; y] * attention K Q V d i x y)))).

(** ** The usual backward formulas *)
Definition a_dp (V G : arr) (j i x y : Z) : R := Rsum h (fun d => V [d; j; x; y] * G [d; i; x; y]).
Definition a_sum (K Q V G : arr) (i x y : Z) : R := Rsum n (fun j => a_dp V G j i x y * aweight K Q j i x y).
Definition a_ds (K Q V G : arr) (j i x y : Z) : R := aweight K Q j i x y * (a_dp V G j i x y - a_sum K Q V G i x y).
Definition a_dq (K Q V G : arr) (d i x y : Z) : R := Rsum n (fun j => K [d; j; x; y] * a_ds K Q V G j i x y) / sqrt (IZR h).
Definition a_dk (K Q V G : arr) (d j x y : Z) : R := Rsum n (fun i => Q [d; i; x; y] * a_ds K Q V G j i x y) / sqrt (IZR h).
Definition a_dv (K Q G : arr) (d j x y : Z) : R := Rsum n (fun i => G [d; i; x; y] * aweight K Q j i x y).

Lemma Rsuml_swap {A B} (l : list A) (k : list B) (f : A -> B -> R) :
  Rsuml l (fun a => Rsuml k (f a)) = Rsuml k (fun b => Rsuml l (fun a => f a b)).
Proof.
  induction l as [|a l IH]; [symmetry; apply Rsuml_0; reflexivity|]. rewrite Rsuml_cons, IH. rewrite <- Rsuml_plus. reflexivity.
Qed.
Lemma Rsum_delta k (f : Z -> R) a : (0 <= a < k)%Z -> Rsum k (fun i => if (i =? a)%Z then f i else 0) = f a.
Proof.
  intros Ha. assert (G : forall l, NoDup l -> In a l -> Rsuml l (fun i => if (i =? a)%Z then f i else 0) = f a).
  { induction 1 as [|x l Hx Hl IH]; intros Hi; [destruct Hi|]. rewrite Rsuml_cons. destruct (Z.eqb_spec x a) as [->|Hne].
    - rewrite Rsuml_0; [lra|]. intros y Hy. destruct (Z.eqb_spec y a) as [->|]; [contradiction|reflexivity].
    - destruct Hi as [->|Hi]; [congruence|]. rewrite IH by assumption. lra. }
  apply G; [apply NoDup_zrange|apply zrange_In; assumption].
Qed.
Lemma Rsum_scal_r k c f : Rsum k (fun x => f x * c) = Rsum k f * c.
Proof. rewrite Rmult_comm. unfold Rsum. rewrite <- Rsuml_scal. apply Rsuml_ext. intros. apply Rmult_comm. Qed.
Lemma Rsum_minus k f g : Rsum k (fun x => f x - g x) = Rsum k f - Rsum k g.
Proof.
  unfold Rsum. induction (zrange k) as [|a l IH]; [unfold Rsuml; cbn; lra|]. rewrite !Rsuml_cons, IH. lra.
Qed.

Lemma is_derive_Rsum k (f : Z -> R -> R) (f' : Z -> R) t : (forall j, (0 <= j < k)%Z -> is_derive (f j) t (f' j)) ->
  is_derive (fun t => Rsum k (fun j => f j t)) t (Rsum k f').
Proof.
  intros H. unfold Rsum. assert (G : forall j, In j (zrange k) -> is_derive (f j) t (f' j)) by (intros j Hj; apply H, zrange_In, Hj).
  clear H. induction (zrange k) as [|a l IH].
  - change (is_derive (K := R_AbsRing) (V := R_NormedModule) (fun _ : R => 0) t (zero : R)). apply (is_derive_const (K := R_AbsRing) (V := R_NormedModule)).
  - apply (is_derive_ext (fun t => f a t + Rsuml l (fun j => f j t))); [intros; reflexivity|]. rewrite Rsuml_cons.
    apply (is_derive_plus (K := R_AbsRing) (V := R_NormedModule) (f a)); [apply G; left; reflexivity|].
    apply IH. intros; apply G; right; assumption.
Qed.

(** Derivative of a weighted sum of a soft-max row. *)
Lemma row_derive (mk : Z -> bool) (S : R -> Z -> R) (S' P : Z -> R) t0 :
  (forall j, (0 <= j < n)%Z -> is_derive (fun t => S t j) t0 (S' j)) ->
  let D t := Rsum n (fun j => if mk j then exp (S t j) else 0) in
  let W t j := if mk j then exp (S t j) / D t else 0 in
  is_derive (fun t => Rsum n (fun j => P j * W t j)) t0
    (Rsum n (fun j => S' j * (W t0 j * (P j - Rsum n (fun k => P k * W t0 k))))).
Proof.
  intros HS D W.
  set (Nu := fun t => Rsum n (fun j => P j * (if mk j then exp (S t j) else 0))).
  assert (E : forall t, Rsum n (fun j => P j * W t j) = Nu t / D t).
  { intros t. unfold Nu, Rdiv. rewrite <- Rsum_scal_r. apply Rsum_ext. intros j _. unfold W. destruct (mk j); unfold Rdiv; ring. }
  apply (is_derive_ext (fun t => Nu t / D t)); [intros; symmetry; apply E|].
  destruct (existsb mk (zrange n)) eqn:Em.
  - apply existsb_exists in Em as (j0 & Hj0 & Mj0).
    assert (Dp : 0 < D t0).
    { unfold D, Rsum. assert (G : forall l, In j0 l -> 0 < Rsuml l (fun j => if mk j then exp (S t0 j) else 0)).
      { induction l as [|a l IH]; intros Hi; [destruct Hi|]. rewrite Rsuml_cons.
        assert (0 <= Rsuml l (fun j => if mk j then exp (S t0 j) else 0))
          by (apply Rsuml_nonneg; intros x _; destruct (mk x); [left; apply exp_pos|lra]).
        destruct Hi as [->|Hi].
        - rewrite Mj0. pose proof (exp_pos (S t0 j0)). lra.
        - pose proof (IH Hi). destruct (mk a); [pose proof (exp_pos (S t0 a))|]; lra. }
      apply G; assumption. }
    assert (HE : forall j, (0 <= j < n)%Z -> is_derive (fun t => if mk j then exp (S t j) else 0) t0 ((if mk j then exp (S t0 j) else 0) * S' j)).
    { intros j Hj. destruct (mk j).
      - evar_last; [apply (is_derive_comp exp (fun t => S t j)); [apply is_derive_exp|apply HS; assumption]|].
        unfold scal; cbn; unfold mult; cbn. ring.
      - evar_last; [apply (is_derive_const (K := R_AbsRing) (V := R_NormedModule))|]. unfold zero; cbn. ring. }
    evar_last.
    + apply (is_derive_div Nu D).
      * apply (is_derive_Rsum n (fun j t => P j * (if mk j then exp (S t j) else 0))). intros j Hj. apply is_derive_scal. apply HE. assumption.
      * apply (is_derive_Rsum n (fun j t => if mk j then exp (S t j) else 0)). intros j Hj. apply HE. assumption.
      * lra.
    + rewrite E.
      transitivity ((Rsum n (fun j => S' j * (W t0 j * P j))) - Nu t0 / D t0 * Rsum n (fun j => S' j * W t0 j)).
      * assert (E1 : Rsum n (fun j => S' j * (W t0 j * P j)) * D t0 = Rsum n (fun j => P j * ((if mk j then exp (S t0 j) else 0) * S' j))).
        { rewrite <- Rsum_scal_r. apply Rsum_ext. intros j _. unfold W. destruct (mk j); [field; lra|ring]. }
        assert (E2 : Rsum n (fun j => S' j * W t0 j) * D t0 = Rsum n (fun j => (if mk j then exp (S t0 j) else 0) * S' j)).
        { rewrite <- Rsum_scal_r. apply Rsum_ext. intros j _. unfold W. destruct (mk j); [field; lra|ring]. }
        unfold minus, plus, opp. cbn. rewrite <- E1, <- E2. field. lra.
      * unfold Rsum at 2. rewrite <- Rsuml_scal. fold (Rsum n (fun j => Nu t0 / D t0 * (S' j * W t0 j))). rewrite <- Rsum_minus.
        apply Rsum_ext. intros j _. ring.
  - assert (Mf : forall j, (0 <= j < n)%Z -> mk j = false).
    { intros j Hj. destruct (mk j) eqn:Ej; [|reflexivity]. exfalso.
      assert (existsb mk (zrange n) = true) by (apply existsb_exists; exists j; split; [apply zrange_In; assumption|assumption]). congruence. }
    assert (N0 : forall t, Nu t = 0).
    { intros t. apply Rsuml_0. intros j Hj. apply zrange_In in Hj. rewrite Mf by assumption. ring. }
    apply (is_derive_ext (fun _ => 0)); [intros t; rewrite N0; unfold Rdiv; rewrite Rmult_0_l; reflexivity|].
    evar_last; [apply (is_derive_const (K := R_AbsRing) (V := R_NormedModule))|]. unfold zero; cbn.
    symmetry. apply Rsuml_0. intros j Hj. apply zrange_In in Hj. unfold W. rewrite Mf by assumption. ring.
Qed.

(** <G, attention> row by row *)
Lemma aloss_rows K Q V G :
  aloss K Q V G = Rsum nh (fun y => Rsum nb (fun x => Rsum n (fun i => Rsum n (fun j => a_dp V G j i x y * aweight K Q j i x y)))).
Proof.
  unfold aloss. apply Rsum_ext. intros y _. apply Rsum_ext. intros x _. apply Rsum_ext. intros i _.
  transitivity (Rsum h (fun d => Rsum n (fun j => V [d; j; x; y] * G [d; i; x; y] * aweight K Q j i x y))).
  - apply Rsum_ext. intros d _. unfold attention, Rsum. rewrite <- Rsuml_scal. apply Rsuml_ext. intros. ring.
  - unfold Rsum. rewrite Rsuml_swap. apply Rsuml_ext. intros j _. apply (Rsum_scal_r h (aweight K Q j i x y)).
Qed.
Lemma aloss_derive (K Q : R -> arr) V G t0 (S' : Z -> Z -> Z -> Z -> R) :
  (forall j i x y, (0 <= j < n)%Z -> is_derive (fun t => ascore (K t) (Q t) j i x y) t0 (S' j i x y)) ->
  is_derive (fun t => aloss (K t) (Q t) V G) t0
    (Rsum nh (fun y => Rsum nb (fun x => Rsum n (fun i => Rsum n (fun j => S' j i x y * a_ds (K t0) (Q t0) V G j i x y))))).
Proof.
  intros H. apply (is_derive_ext (fun t => Rsum nh (fun y => Rsum nb (fun x => Rsum n (fun i => Rsum n (fun j => a_dp V G j i x y * aweight (K t) (Q t) j i x y)))))).
  { intros t. symmetry. apply aloss_rows. }
  apply (is_derive_Rsum nh (fun y t => Rsum nb (fun x => Rsum n (fun i => Rsum n (fun j => a_dp V G j i x y * aweight (K t) (Q t) j i x y))))). intros y _.
  apply (is_derive_Rsum nb (fun x t => Rsum n (fun i => Rsum n (fun j => a_dp V G j i x y * aweight (K t) (Q t) j i x y)))). intros x _.
  apply (is_derive_Rsum n (fun i t => Rsum n (fun j => a_dp V G j i x y * aweight (K t) (Q t) j i x y))). intros i _.
  apply (row_derive (fun j => m [j; i]) (fun t j => ascore (K t) (Q t) j i x y) (fun j => S' j i x y) (fun j => a_dp V G j i x y)).
  intros j Hj. apply H. assumption.
Qed.
Lemma upd_derive (f : arr) idx i t0 : is_derive (fun t => upd f idx t i) t0 (if list_eq_dec Z.eq_dec i idx then 1 else 0).
Proof.
  unfold upd. destruct (list_eq_dec Z.eq_dec i idx).
  - apply (is_derive_id (K := R_AbsRing)).
  - apply (is_derive_const (K := R_AbsRing) (V := R_NormedModule)).
Qed.
Lemma hit4 (A : Type) d i x y d0 i0 x0 y0 (u v : A) :
  (if list_eq_dec Z.eq_dec [d; i; x; y] [d0; i0; x0; y0] then u else v) =
  if ((d =? d0) && ((i =? i0) && ((x =? x0) && (y =? y0))))%Z then u else v.
Proof.
  destruct (list_eq_dec Z.eq_dec [d; i; x; y] [d0; i0; x0; y0]) as [E|E].
  - inversion E; subst. rewrite !Z.eqb_refl. reflexivity.
  - destruct (Z.eqb_spec d d0) as [->|]; [|reflexivity]. destruct (Z.eqb_spec i i0) as [->|]; [|reflexivity].
    destruct (Z.eqb_spec x x0) as [->|]; [|reflexivity]. destruct (Z.eqb_spec y y0) as [->|]; [|reflexivity]. congruence.
Qed.
Lemma upd_self f idx : forall i, upd f idx (f idx) i = f i.
Proof. intros i. unfold upd. destruct (list_eq_dec Z.eq_dec i idx) as [->|]; reflexivity. Qed.
Lemma ds_ext K K' Q Q' V G j i x y : (forall idx, K idx = K' idx) -> (forall idx, Q idx = Q' idx) ->
  a_ds K Q V G j i x y = a_ds K' Q' V G j i x y.
Proof.
  intros H1 H2. assert (A : forall j i x y, ascore K Q j i x y = ascore K' Q' j i x y).
  { intros. unfold ascore. f_equal. apply Rsum_ext. intros. rewrite H1, H2. reflexivity. }
  assert (D : adenom K Q i x y = adenom K' Q' i x y) by (unfold adenom; apply Rsum_ext; intros k _; rewrite A; reflexivity).
  assert (Wt : forall j, aweight K Q j i x y = aweight K' Q' j i x y) by (intros k; unfold aweight; rewrite A, D; reflexivity).
  unfold a_ds, a_sum. rewrite Wt. f_equal. f_equal. apply Rsum_ext. intros k _. rewrite Wt. reflexivity.
Qed.

(** The backward formulas are the partial derivatives of <G, attention>. *)
Theorem dq_derive K Q V G d i x y : (0 <= d < h)%Z -> (0 <= i < n)%Z -> (0 <= x < nb)%Z -> (0 <= y < nh)%Z ->
  is_derive (fun t => aloss K (upd Q [d; i; x; y] t) V G) (Q [d; i; x; y]) (a_dq K Q V G d i x y).
Proof.
  intros Hd Hi Hx Hy. evar_last.
  - apply (aloss_derive (fun _ => K) (fun t => upd Q [d; i; x; y] t) V G _
      (fun j i' x' y' => if ((i' =? i) && ((x' =? x) && (y' =? y)))%Z then K [d; j; x; y] / sqrt (IZR h) else 0)).
    intros j i' x' y' _. unfold ascore. evar_last.
    + apply (is_derive_ext (fun t => / sqrt (IZR h) * Rsum h (fun d' => K [d'; j; x'; y'] * upd Q [d; i; x; y] t [d'; i'; x'; y'])));
        [intros; unfold Rdiv; apply Rmult_comm|].
      apply is_derive_scal. apply (is_derive_Rsum h (fun d' t => K [d'; j; x'; y'] * upd Q [d; i; x; y] t [d'; i'; x'; y'])).
      intros d' _. apply is_derive_scal. apply upd_derive.
    + rewrite (Rsum_ext _ _ (fun d' => if (d' =? d)%Z then (if ((i' =? i) && ((x' =? x) && (y' =? y)))%Z then K [d'; j; x'; y'] else 0) else 0)).
      * rewrite Rsum_delta by assumption.
        destruct (Z.eqb_spec i' i) as [->|]; cbn [andb]; [|lra]. destruct (Z.eqb_spec x' x) as [->|]; cbn [andb]; [|lra].
        destruct (Z.eqb_spec y' y) as [->|]; [|lra]. unfold Rdiv. apply Rmult_comm.
      * intros d' _. rewrite hit4. destruct (d' =? d)%Z; cbn [andb]; [|ring]. destruct ((i' =? i) && ((x' =? x) && (y' =? y)))%Z; ring.
  - cbv beta.
    transitivity (Rsum nh (fun y' => if (y' =? y)%Z then Rsum nb (fun x' => if (x' =? x)%Z then Rsum n (fun i' => if (i' =? i)%Z then
      Rsum n (fun j => K [d; j; x; y] / sqrt (IZR h) * a_ds K Q V G j i' x' y') else 0) else 0) else 0)).
    + apply Rsum_ext. intros y' _. destruct (Z.eqb_spec y' y) as [->|Hne].
      * apply Rsum_ext. intros x' _. destruct (Z.eqb_spec x' x) as [->|Hne].
        -- apply Rsum_ext. intros i' _. destruct (Z.eqb_spec i' i) as [->|Hne].
           ++ cbn [andb]. apply Rsum_ext. intros j _. f_equal. apply ds_ext; [reflexivity|apply upd_self].
           ++ apply Rsuml_0. intros. cbn [andb]. ring.
        -- apply Rsuml_0. intros. apply Rsuml_0. intros. rewrite andb_false_r. ring.
      * apply Rsuml_0. intros. apply Rsuml_0. intros. apply Rsuml_0. intros. rewrite !andb_false_r. ring.
    + rewrite Rsum_delta by assumption. rewrite Rsum_delta by assumption. rewrite Rsum_delta by assumption.
      unfold a_dq, Rdiv. rewrite <- Rsum_scal_r. apply Rsum_ext. intros. ring.
Qed.
Theorem dk_derive K Q V G d j x y : (0 <= d < h)%Z -> (0 <= j < n)%Z -> (0 <= x < nb)%Z -> (0 <= y < nh)%Z ->
  is_derive (fun t => aloss (upd K [d; j; x; y] t) Q V G) (K [d; j; x; y]) (a_dk K Q V G d j x y).
Proof.
  intros Hd Hj Hx Hy. evar_last.
  - apply (aloss_derive (fun t => upd K [d; j; x; y] t) (fun _ => Q) V G _
      (fun j' i' x' y' => if ((j' =? j) && ((x' =? x) && (y' =? y)))%Z then Q [d; i'; x; y] / sqrt (IZR h) else 0)).
    intros j' i' x' y' _. unfold ascore. evar_last.
    + apply (is_derive_ext (fun t => / sqrt (IZR h) * Rsum h (fun d' => Q [d'; i'; x'; y'] * upd K [d; j; x; y] t [d'; j'; x'; y'])));
        [intros t; unfold Rdiv; rewrite Rmult_comm; f_equal; apply Rsum_ext; intros; apply Rmult_comm|].
      apply is_derive_scal. apply (is_derive_Rsum h (fun d' t => Q [d'; i'; x'; y'] * upd K [d; j; x; y] t [d'; j'; x'; y'])).
      intros d' _. apply is_derive_scal. apply upd_derive.
    + rewrite (Rsum_ext _ _ (fun d' => if (d' =? d)%Z then (if ((j' =? j) && ((x' =? x) && (y' =? y)))%Z then Q [d'; i'; x'; y'] else 0) else 0)).
      * rewrite Rsum_delta by assumption.
        destruct (Z.eqb_spec j' j) as [->|]; cbn [andb]; [|lra]. destruct (Z.eqb_spec x' x) as [->|]; cbn [andb]; [|lra].
        destruct (Z.eqb_spec y' y) as [->|]; [|lra]. unfold Rdiv. apply Rmult_comm.
      * intros d' _. rewrite hit4. destruct (d' =? d)%Z; cbn [andb]; [|ring]. destruct ((j' =? j) && ((x' =? x) && (y' =? y)))%Z; ring.
  - cbv beta.
    transitivity (Rsum nh (fun y' => if (y' =? y)%Z then Rsum nb (fun x' => if (x' =? x)%Z then Rsum n (fun i' => 
      Rsum n (fun j' => if (j' =? j)%Z then Q [d; i'; x; y] / sqrt (IZR h) * a_ds K Q V G j' i' x' y' else 0)) else 0) else 0)).
    + apply Rsum_ext. intros y' _. destruct (Z.eqb_spec y' y) as [->|Hne].
      * apply Rsum_ext. intros x' _. destruct (Z.eqb_spec x' x) as [->|Hne].
        -- apply Rsum_ext. intros i' _. apply Rsum_ext. intros j' _. destruct (Z.eqb_spec j' j) as [->|Hne].
           ++ cbn [andb]. f_equal. apply ds_ext; [apply upd_self|reflexivity].
           ++ cbn [andb]. ring.
        -- apply Rsuml_0. intros. apply Rsuml_0. intros. rewrite andb_false_r. ring.
      * apply Rsuml_0. intros. apply Rsuml_0. intros. apply Rsuml_0. intros. rewrite !andb_false_r. ring.
    + rewrite Rsum_delta by assumption. rewrite Rsum_delta by assumption.
      unfold a_dk, Rdiv. rewrite <- Rsum_scal_r. apply Rsum_ext. intros i' _. rewrite Rsum_delta by assumption. ring.
Qed.
Theorem dv_derive K Q V G d j x y : (0 <= d < h)%Z -> (0 <= j < n)%Z -> (0 <= x < nb)%Z -> (0 <= y < nh)%Z ->
  is_derive (fun t => aloss K Q (upd V [d; j; x; y] t) G) (V [d; j; x; y]) (a_dv K Q G d j x y).
Proof.
  intros Hd Hj Hx Hy. unfold aloss, attention. evar_last.
  - apply (is_derive_Rsum nh (fun y' t => Rsum nb (fun x' => Rsum n (fun i' => Rsum h (fun d' => G [d'; i'; x'; y'] *
      Rsum n (fun j' => upd V [d; j; x; y] t [d'; j'; x'; y'] * aweight K Q j' i' x' y')))))). intros y' _.
    apply (is_derive_Rsum nb (fun x' t => Rsum n (fun i' => Rsum h (fun d' => G [d'; i'; x'; y'] *
      Rsum n (fun j' => upd V [d; j; x; y] t [d'; j'; x'; y'] * aweight K Q j' i' x' y'))))). intros x' _.
    apply (is_derive_Rsum n (fun i' t => Rsum h (fun d' => G [d'; i'; x'; y'] *
      Rsum n (fun j' => upd V [d; j; x; y] t [d'; j'; x'; y'] * aweight K Q j' i' x' y')))). intros i' _.
    apply (is_derive_Rsum h (fun d' t => G [d'; i'; x'; y'] *
      Rsum n (fun j' => upd V [d; j; x; y] t [d'; j'; x'; y'] * aweight K Q j' i' x' y'))). intros d' _.
    apply is_derive_scal.
    apply (is_derive_Rsum n (fun j' t => upd V [d; j; x; y] t [d'; j'; x'; y'] * aweight K Q j' i' x' y')). intros j' _.
    apply (is_derive_ext (fun t => aweight K Q j' i' x' y' * upd V [d; j; x; y] t [d'; j'; x'; y'])); [intros; apply Rmult_comm|].
    apply is_derive_scal. apply upd_derive.
  - cbv beta.
    transitivity (Rsum nh (fun y' => if (y' =? y)%Z then Rsum nb (fun x' => if (x' =? x)%Z then Rsum n (fun i' => 
      Rsum h (fun d' => if (d' =? d)%Z then G [d'; i'; x'; y'] * Rsum n (fun j' => if (j' =? j)%Z then aweight K Q j' i' x' y' else 0) else 0)) else 0) else 0)).
    + apply Rsum_ext. intros y' _. destruct (Z.eqb_spec y' y) as [->|Hne].
      * apply Rsum_ext. intros x' _. destruct (Z.eqb_spec x' x) as [->|Hne].
        -- apply Rsum_ext. intros i' _. apply Rsum_ext. intros d' _. destruct (Z.eqb_spec d' d) as [->|Hne].
           ++ f_equal. apply Rsum_ext. intros j' _. rewrite hit4, !Z.eqb_refl. cbn [andb]. rewrite andb_true_r. destruct (j' =? j)%Z; ring.
           ++ unfold Rsum. rewrite Rsuml_0; [ring|]. intros j' _. rewrite hit4. destruct (Z.eqb_spec d' d); [contradiction|]. cbn [andb]. ring.
        -- apply Rsuml_0. intros i' _. apply Rsuml_0. intros d' _. unfold Rsum. rewrite Rsuml_0; [ring|]. intros j' _. rewrite hit4.
           destruct (Z.eqb_spec x' x); [contradiction|]. cbn [andb]. rewrite !andb_false_r. ring.
      * apply Rsuml_0. intros x' _. apply Rsuml_0. intros i' _. apply Rsuml_0. intros d' _. unfold Rsum. rewrite Rsuml_0; [ring|]. intros j' _. rewrite hit4.
        destruct (Z.eqb_spec y' y); [contradiction|]. rewrite !andb_false_r. ring.
    + rewrite Rsum_delta by assumption. rewrite Rsum_delta by assumption. unfold a_dv. apply Rsum_ext. intros i' _.
      rewrite Rsum_delta by assumption. rewrite Rsum_delta by assumption. reflexivity.
Qed.

(** the weights are a probability distribution over the allowed keys *)
Lemma adenom_pos K Q i x y : (exists j, (0 <= j < n)%Z /\ m [j; i] = true) -> 0 < adenom K Q i x y.
Proof.
  intros (j0 & Hj0 & M). unfold adenom, Rsum. apply zrange_In in Hj0.
  assert (G : forall l, In j0 l -> 0 < Rsuml l (fun j => if m [j; i] then exp (ascore K Q j i x y) else 0)).
  { induction l as [|a l IH]; intros Hi; [destruct Hi|]. rewrite Rsuml_cons.
    assert (0 <= Rsuml l (fun j => if m [j; i] then exp (ascore K Q j i x y) else 0))
      by (apply Rsuml_nonneg; intros z _; destruct (m [z; i]); [left; apply exp_pos|lra]).
    destruct Hi as [->|Hi].
    - rewrite M. pose proof (exp_pos (ascore K Q j0 i x y)). lra.
    - pose proof (IH Hi). destruct (m [a; i]); [pose proof (exp_pos (ascore K Q a i x y))|]; lra. }
  apply G; assumption.
Qed.
Theorem aweight_distribution K Q i x y :
  (forall j, 0 <= aweight K Q j i x y) /\
  ((exists j, (0 <= j < n)%Z /\ m [j; i] = true) -> Rsum n (fun j => aweight K Q j i x y) = 1) /\
  (forall j, m [j; i] = false -> aweight K Q j i x y = 0).
Proof.
  split; [|split].
  - intros j. unfold aweight. destruct (m [j; i]); [|lra].
    assert (0 <= adenom K Q i x y) by (apply Rsuml_nonneg; intros z _; destruct (m [z; i]); [left; apply exp_pos|lra]).
    destruct H as [H|H].
    + left. apply Rdiv_lt_0_compat; [apply exp_pos|assumption].
    + rewrite <- H. unfold Rdiv. rewrite Rinv_0. lra.
  - intros Hex. pose proof (adenom_pos K Q i x y Hex) as D.
    rewrite (Rsum_ext _ _ (fun j => (if m [j; i] then exp (ascore K Q j i x y) else 0) * / adenom K Q i x y)).
    + rewrite Rsum_scal_r. fold (adenom K Q i x y). field. lra.
    + intros j _. unfold aweight. destruct (m [j; i]); [reflexivity|ring].
  - intros j E. unfold aweight. rewrite E. reflexivity.
Qed.
End Attention.
