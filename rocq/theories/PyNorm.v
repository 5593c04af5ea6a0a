(** * The LayerNorm layer *)
From Coq Require Import Reals Lra FunctionalExtensionality.
From Coquelicot Require Import Coquelicot.
From Verif Require Import Base Spec Geometry Traits TraitsProofs Runtime Ops RealOps TensorSem OneOut ElemOps Axis SliceOps SliceGeo FiberOps FiberGeo PropElem PropSlice PropFiber SoftmaxScalar RSum XReals Sequence NdRuns PropLoss PropDeriv AttnSpec XTriples HasRuns TapeMath VjpMath Tape PyLayers PyLinear PySimple.
Local Close Scope Z_scope.
Local Open Scope R_scope.

(** ** Normalisation of one row *)
Section Row.
Variables (l : Z) (e : R).
Definition rmean (a : Z -> R) : R := 1 / IZR l * Rsum l a.
Definition rvar (a : Z -> R) : R := 1 / IZR l * Rsum l (fun k => (a k - rmean a) * (a k - rmean a)).
Definition rinv (a : Z -> R) : R := 1 / sqrt (rvar a + e * e).
Definition rnorm (a : Z -> R) (k : Z) : R := (a k - rmean a) * rinv a.
Hypothesis (Hl : (0 < l)%Z) (He : 0 < e).

Lemma IZR_l : 0 < IZR l. Proof. apply (IZR_lt 0). assumption. Qed.
Lemma rmean_0 a : Rsum l (fun k => a k - rmean a) = 0.
Proof.
  rewrite AttnSpec.Rsum_minus, Rsum_const by lia. unfold rmean. pose proof IZR_l. field. lra.
Qed.
Lemma rvar_nonneg a : 0 <= rvar a.
Proof.
  unfold rvar. pose proof IZR_l. apply Rmult_le_pos.
  - unfold Rdiv. rewrite Rmult_1_l. left. apply Rinv_0_lt_compat. assumption.
  - apply Rsuml_nonneg. intros k _. apply (Rle_0_sqr (a k - rmean a)).
Qed.
Lemma rden_pos a : 0 < sqrt (rvar a + e * e).
Proof. apply sqrt_lt_R0. pose proof (rvar_nonneg a). nra. Qed.

Variables (a : R -> Z -> R) (a' : Z -> R) (t0 : R).
Hypothesis Ha : forall k, (0 <= k < l)%Z -> is_derive (fun t => a t k) t0 (a' k).

Lemma rmean_derive : is_derive (fun t => rmean (a t)) t0 (rmean a').
Proof.
  unfold rmean. apply (is_derive_scal (fun t => Rsum l (a t)) t0 (1 / IZR l) (Rsum l a')).
  apply (is_derive_Rsuml (zrange l) (fun k t => a t k) a'). intros k Hk. apply zrange_In in Hk. apply Ha. assumption.
Qed.
Lemma rvar_derive : is_derive (fun t => rvar (a t)) t0 (2 / IZR l * Rsum l (fun k => (a t0 k - rmean (a t0)) * a' k)).
Proof.
  assert (H : is_derive (fun t => rvar (a t)) t0 (1 / IZR l * Rsum l (fun k => 2 * (a t0 k - rmean (a t0)) * (a' k - rmean a')))).
  { unfold rvar. apply (is_derive_scal (fun t => Rsum l (fun k => (a t k - rmean (a t)) * (a t k - rmean (a t))))).
    apply (is_derive_Rsuml (zrange l) (fun k t => (a t k - rmean (a t)) * (a t k - rmean (a t)))). intros k Hk. apply zrange_In in Hk.
    assert (D : is_derive (fun t => a t k - rmean (a t)) t0 (a' k - rmean a')).
    { apply (is_derive_minus (K := R_AbsRing) (V := R_NormedModule)); [apply Ha; assumption|apply rmean_derive]. }
    replace (2 * (a t0 k - rmean (a t0)) * (a' k - rmean a')) with ((a' k - rmean a') * (a t0 k - rmean (a t0)) + (a t0 k - rmean (a t0)) * (a' k - rmean a')) by ring.
    apply (is_derive_mult (fun t => a t k - rmean (a t)) (fun t => a t k - rmean (a t))); [exact D|exact D|intros; apply Rmult_comm]. }
  replace (2 / IZR l * Rsum l (fun k => (a t0 k - rmean (a t0)) * a' k)) with
    (1 / IZR l * Rsum l (fun k => 2 * (a t0 k - rmean (a t0)) * (a' k - rmean a'))); [exact H|].
  rewrite (Rsum_ext l _ (fun k => 2 * ((a t0 k - rmean (a t0)) * a' k) - (a t0 k - rmean (a t0)) * (2 * rmean a'))) by (intros; ring).
  rewrite AttnSpec.Rsum_minus, Rsum_scal, AttnSpec.Rsum_scal_r, rmean_0. field. pose proof IZR_l. lra.
Qed.
Lemma rinv_derive : is_derive (fun t => rinv (a t)) t0 (- (rinv (a t0) * rinv (a t0) * (1 / IZR l * Rsum l (fun k => rnorm (a t0) k * a' k)))).
Proof.
  pose proof (rden_pos (a t0)) as Hd. pose proof (rvar_nonneg (a t0)) as Hv.
  assert (Hq : sqrt (rvar (a t0) + e * e) * sqrt (rvar (a t0) + e * e) = rvar (a t0) + e * e) by (apply sqrt_sqrt; nra).
  assert (Dg : is_derive (fun v => 1 / sqrt (v + e * e)) (rvar (a t0)) (- (1 / (2 * (sqrt (rvar (a t0) + e * e) * sqrt (rvar (a t0) + e * e) * sqrt (rvar (a t0) + e * e)))))).
  { auto_derive; [split; [nra|]; split; [lra|exact I]|]. field. lra. }
  pose proof (is_derive_comp (fun v => 1 / sqrt (v + e * e)) (fun t => rvar (a t)) t0 _ _ Dg rvar_derive) as H.
  unfold rinv at 1. evar_last; [exact H|].
  change (scal ?x ?y) with (x * y).
  rewrite (Rsum_ext l (fun k => rnorm (a t0) k * a' k) (fun k => rinv (a t0) * ((a t0 k - rmean (a t0)) * a' k))) by (intros; unfold rnorm; ring).
  rewrite Rsum_scal. unfold rinv. pose proof IZR_l. field. lra.
Qed.
Lemma rnorm_derive k : (0 <= k < l)%Z ->
  is_derive (fun t => rnorm (a t) k) t0 (rinv (a t0) * (a' k - rmean a' - rnorm (a t0) k * (1 / IZR l * Rsum l (fun j => rnorm (a t0) j * a' j)))).
Proof.
  intros Hk. unfold rnorm at 1.
  assert (D : is_derive (fun t => a t k - rmean (a t)) t0 (a' k - rmean a')).
  { apply (is_derive_minus (K := R_AbsRing) (V := R_NormedModule)); [apply Ha; assumption|apply rmean_derive]. }
  evar_last; [apply (is_derive_mult (fun t => a t k - rmean (a t)) (fun t => rinv (a t)) _ _ _ D rinv_derive); intros; apply Rmult_comm|].
  unfold plus, mult; cbn. unfold rnorm at 2. ring.
Qed.
End Row.

(** The row of [f] at position [d] of the other axes. *)
Definition row (axis : Z) (f : arr) (d : list Z) (k : Z) : R := f (ins axis k d).

Section Fun.
Variables (sh : list Z) (axis : Z) (e : R).
Notation l := (zn sh axis).
Definition ln_inv (f : arr) : arr := fun d => rinv l e (row axis f d).
Definition ln_norm (f : arr) : arr := fun idx => (f idx - rmean l (row axis f (del axis idx))) * rinv l e (row axis f (del axis idx)).
(** inputs: 0 is x, 1 is gamma, 2 is beta *)
Definition ln_F (vs : nat -> arr) : arr := fun idx => vs 1%nat [zn idx axis] * ln_norm (vs 0%nat) idx + vs 2%nat [zn idx axis].
(** gamma times the incoming gradient *)
Definition ln_gg (vs : nat -> arr) (gy : arr) : arr := fun idx => vs 1%nat [zn idx axis] * gy idx.
Definition ln_dx (vs : nat -> arr) (gy : arr) : arr := fun idx =>
  let d := del axis idx in
  ln_inv (vs 0%nat) d * (ln_gg vs gy idx - ln_norm (vs 0%nat) idx * (1 / IZR l * Rsum l (fun k => ln_gg vs gy (ins axis k d) * ln_norm (vs 0%nat) (ins axis k d)))
    - 1 / IZR l * Rsum l (fun k => ln_gg vs gy (ins axis k d))).
Definition ln_dl (vs : nat -> arr) (gy : arr) (j : nat) : arr :=
  match j with
  | O => ln_dx vs gy
  | 1%nat => fun d => fiber_sum sh axis 0 d (fun idx => gy idx * ln_norm (vs 0%nat) idx)
  | _ => fun d => fiber_sum sh axis 0 d gy
  end.
End Fun.

Lemma Rsuml_rows sh axis f : pos sh -> (0 <= axis < zlen sh)%Z ->
  Rsuml (all_idx sh) f = Rsuml (all_idx (del axis sh)) (fun d => Rsum (zn sh axis) (fun k => f (ins axis k d))).
Proof.
  intros P Ha. rewrite <- (Rsuml_axis sh axis (fun k d => f (ins axis k d))) by assumption. apply Rsuml_ext. intros i Hi.
  apply all_idx_In in Hi; [|assumption]. apply inb_zlen in Hi. rewrite ins_del by lia. reflexivity.
Qed.
Lemma pos_del axis sh : (0 <= axis < zlen sh)%Z -> pos sh -> pos (del axis sh).
Proof.
  intros Ha P. destruct (split_at sh axis Ha) as (a & x & b & -> & L). rewrite del_app by assumption. unfold pos in *. rewrite Forall_app in *.
  destruct P as [P1 P2]. inversion P2; subst. auto.
Qed.
Lemma ins_inb axis sh k d : (0 <= axis < zlen sh)%Z -> (0 <= k < zn sh axis)%Z -> inb (del axis sh) d -> inb sh (ins axis k d) /\ zn (ins axis k d) axis = k /\ del axis (ins axis k d) = d.
Proof.
  intros Ha Hk Hd. pose proof (inb_zlen _ _ Hd) as L. rewrite zlen_del in L by assumption.
  split; [|split; [apply zn_ins; lia|apply del_ins; lia]].
  destruct (split_at sh axis Ha) as (a & x & b & -> & La). rewrite del_app in Hd by assumption. rewrite zn_mid in Hk by assumption.
  apply inb_app_inv_l in Hd as (i1 & i2 & -> & H1 & H2). rewrite ins_app by (apply inb_zlen in H1; lia).
  apply inb_app; [assumption|]. constructor; assumption.
Qed.

Lemma ln_tv sh axis e ish D : 0 < e -> pos sh -> (0 <= axis < zlen sh)%Z -> ish 0%nat = sh -> ish 1%nat = [zn sh axis] -> ish 2%nat = [zn sh axis] ->
  tv 3 ish sh D (ln_F sh axis e) (ln_dl sh axis e).
Proof.
  intros He P Ha E0 E1 E2. set (l := zn sh axis) in *.
  assert (Hl : (0 < l)%Z) by (apply pos_zn; assumption).
  intros c c' t0 _ Hc.
  assert (C0 : forall idx, inb sh idx -> is_derive (fun t => c t 0%nat idx) t0 (c' 0%nat idx)) by (intros; apply Hc; [lia|rewrite E0; assumption]).
  assert (C1 : forall k, (0 <= k < l)%Z -> is_derive (fun t => c t 1%nat [k]) t0 (c' 1%nat [k])) by (intros; apply Hc; [lia|rewrite E1; constructor; [assumption|constructor]]).
  assert (C2 : forall k, (0 <= k < l)%Z -> is_derive (fun t => c t 2%nat [k]) t0 (c' 2%nat [k])) by (intros; apply Hc; [lia|rewrite E2; constructor; [assumption|constructor]]).
  set (x := c t0 0%nat). set (nm := ln_norm sh axis e x).
  set (nm' := fun idx => ln_inv sh axis e x (del axis idx) * (c' 0%nat idx - rmean l (row axis (c' 0%nat) (del axis idx)) -
     nm idx * (1 / IZR l * Rsum l (fun j => nm (ins axis j (del axis idx)) * c' 0%nat (ins axis j (del axis idx)))))).
  assert (Zn : forall idx, inb sh idx -> (0 <= zn idx axis < l)%Z) by (intros; apply inb_zn; assumption).
  assert (Nr : forall (f : arr) d k, inb (del axis sh) d -> (0 <= k < l)%Z -> ln_norm sh axis e f (ins axis k d) = rnorm l e (row axis f d) k).
  { intros f d k Hd Hk. destruct (ins_inb axis sh k d Ha Hk Hd) as (_ & _ & Ed). unfold ln_norm. rewrite Ed. reflexivity. }
  assert (Dn : forall idx, inb sh idx -> is_derive (fun t => ln_norm sh axis e (c t 0%nat) idx) t0 (nm' idx)).
  { intros idx Hi. set (d := del axis idx). assert (Hd : inb (del axis sh) d) by (apply inb_del; assumption).
    assert (Ei : idx = ins axis (zn idx axis) d) by (symmetry; apply ins_del; apply inb_zlen in Hi; lia).
    assert (Ha' : forall k, (0 <= k < l)%Z -> is_derive (fun t => row axis (c t 0%nat) d k) t0 (row axis (c' 0%nat) d k)).
    { intros k Hk. apply C0. apply ins_inb; assumption. }
    pose proof (rnorm_derive l e Hl He (fun t => row axis (c t 0%nat) d) (row axis (c' 0%nat) d) t0 Ha' (zn idx axis) (Zn idx Hi)) as H.
    assert (Nr' : forall f, rnorm l e (row axis f d) (zn idx axis) = ln_norm sh axis e f idx).
    { intros f. rewrite <- Nr by (assumption || (apply Zn; assumption)). rewrite <- Ei. reflexivity. }
    apply (is_derive_ext (fun t => rnorm l e (row axis (c t 0%nat) d) (zn idx axis))); [intros t; apply Nr'|].
    evar_last; [exact H|]. unfold nm'. fold d. unfold ln_inv, nm. fold x. rewrite (Rsum_ext l (fun j => ln_norm sh axis e x (ins axis j d) * c' 0%nat (ins axis j d)) (fun j => rnorm l e (row axis x d) j * row axis (c' 0%nat) d j)).
    2:{ intros j Hj. rewrite Nr by assumption. reflexivity. }
    replace (row axis (c' 0%nat) d (zn idx axis)) with (c' 0%nat idx) by (unfold row; rewrite <- Ei; reflexivity).
    replace (ln_norm sh axis e x idx) with (rnorm l e (row axis x d) (zn idx axis)) by apply Nr'.
    reflexivity. }
  set (gam := c t0 1%nat).
  set (y' := fun idx => c' 1%nat [zn idx axis] * nm idx + gam [zn idx axis] * nm' idx + c' 2%nat [zn idx axis]).
  exists y'. split.
  - intros idx Hi. unfold ln_F. apply (is_derive_plus (K := R_AbsRing) (V := R_NormedModule) (fun t => c t 1%nat [zn idx axis] * ln_norm sh axis e (c t 0%nat) idx) (fun t => c t 2%nat [zn idx axis])); [|apply C2, Zn; assumption].
    apply (is_derive_mult (fun t => c t 1%nat [zn idx axis]) (fun t => ln_norm sh axis e (c t 0%nat) idx)); [apply C1, Zn; assumption|apply Dn; assumption|intros; apply Rmult_comm].
  - intros gy. unfold Nsum. cbn [seq]. rewrite !Rsuml_cons, Rsuml_nil, E0, E1, E2, Rplus_0_r. cbn [ln_dl].
    assert (Pl : pos [l]) by (constructor; [assumption|constructor]).
    assert (Fb : forall idx, inb sh idx -> fib axis 0 idx = [zn idx axis]) by (intros idx Hi; apply fib_last; apply inb_zlen in Hi; lia).
    assert (Fin_ : forall i, In i (all_idx sh) -> inb [l] (fib axis 0 i)).
    { intros i Hi. apply all_idx_In in Hi; [|assumption]. rewrite Fb by assumption. constructor; [apply Zn; assumption|constructor]. }
    assert (Fib : forall (g h : arr), Rsuml (all_idx sh) (fun i => g i * h [zn i axis]) = dot [l] (fun d => fiber_sum sh axis 0 d g) h).
    { intros g h. rewrite (Rsuml_ext _ _ (fun i => g i * h (fib axis 0 i))).
      2:{ intros i Hi. apply all_idx_In in Hi; [|assumption]. rewrite Fb by assumption. reflexivity. }
      rewrite (pre_dot sh [l] (fib axis 0) g h Pl Fin_). apply Rsuml_ext. intros k _. rewrite pre_fiber. reflexivity. }
    rewrite <- !Fib. unfold dot.
    transitivity (Rsuml (all_idx sh) (fun i => ln_gg axis (c t0) gy i * nm' i) + (Rsuml (all_idx sh) (fun i => gy i * nm i * c' 1%nat [zn i axis]) + Rsuml (all_idx sh) (fun i => gy i * c' 2%nat [zn i axis]))).
    { rewrite <- !Rsuml_plus. apply Rsuml_ext. intros i _. unfold y', ln_gg. fold gam. ring. }
    f_equal. rewrite !(Rsuml_rows sh axis) by assumption. apply Rsuml_ext. intros d Hd. apply all_idx_In in Hd; [|apply pos_del; assumption].
    set (gg := fun k => ln_gg axis (c t0) gy (ins axis k d)). set (n := fun k => nm (ins axis k d)). set (q := fun k => c' 0%nat (ins axis k d)).
    set (r := ln_inv sh axis e x d). set (S := Rsum l (fun k => n k * q k)). set (S1 := Rsum l q). set (S2 := Rsum l (fun k => gg k * n k)). set (S3 := Rsum l gg).
    transitivity (Rsum l (fun k => r * (gg k * q k) + (- (r * (1 / IZR l) * S1)) * gg k + (- (r * (1 / IZR l) * S)) * (gg k * n k))).
    { apply Rsum_ext. intros k Hk. destruct (ins_inb axis sh k d Ha Hk Hd) as (_ & _ & Ed). unfold nm'. rewrite Ed. fold r. unfold rmean, row.
      fold q. fold (gg k) (n k) (q k). change (Rsum l (fun k0 => c' 0%nat (ins axis k0 d))) with S1. change (Rsum l (fun j => nm (ins axis j d) * c' 0%nat (ins axis j d))) with S. fold S1. ring. }
    transitivity (Rsum l (fun k => r * (gg k * q k) + (- (r * (1 / IZR l) * S3)) * q k + (- (r * (1 / IZR l) * S2)) * (n k * q k))).
    { rewrite !Rsum_plus, !Rsum_scal. fold S S1 S2 S3. ring. }
    apply Rsum_ext. intros k Hk. destruct (ins_inb axis sh k d Ha Hk Hd) as (_ & _ & Ed). unfold ln_dx. rewrite Ed. fold x. fold r nm.
    fold (gg k) (n k) (q k). change (Rsum (zn sh axis) (fun k0 => ln_gg axis (c t0) gy (ins axis k0 d) * nm (ins axis k0 d))) with S2.
    change (Rsum (zn sh axis) (fun k0 => ln_gg axis (c t0) gy (ins axis k0 d))) with S3. fold l. ring.
Qed.

Section Layer.
Context {E : env} (req : nat -> bool).
Notation node_ok := (node_ok req).

(** x and y are tiled alike, gamma and beta run along the axis; four temporaries: two tiled
    like x, two like x without the axis. *)
Record ln_ok (x y gamma beta : nat) (axis : Z) (eps : R) (id : nat) : Prop := {
  no_x : node_ok x; no_y : node_ok y; no_g : node_ok gamma; no_b : node_ok beta;
  no_rx : req x = true; no_ry : req y = true; no_rg : req gamma = true; no_rb : req beta = true;
  no_xy : x <> y; no_gy : gamma <> y; no_by : beta <> y;
  no_same : same_tiling (A (Val x)) (A (Val y));
  no_fg : fiber_match (A (Val y)) (A (Val gamma)) axis 0; no_fb : fiber_match (A (Val y)) (A (Val beta)) axis 0;
  no_t : forall i, (i < 4)%nat -> U (Tmp id i);
  no_t0 : same_tiling (A (Tmp id 0)) (A (Val y)); no_t1 : same_tiling (A (Tmp id 1)) (A (Val y));
  no_t2 : slice_match (A (Val y)) (A (Tmp id 2)) axis; no_t3 : slice_match (A (Val y)) (A (Tmp id 3)) axis;
  no_eps : 0 < eps
}.
Definition ln_layer (x y gamma beta : nat) (axis : Z) (eps : R) (id : nat) : layer := {|
  ly_m := {| ml_ins := [x; gamma; beta]; ml_out := y; ml_F := ln_F (vshape y) axis eps; ml_D := fun _ => True; ml_dl := ln_dl (vshape y) axis eps |};
  ly_id := id;
  ly_py := {| pl_forward := layer_norm_forward (node req x) (node req y) (node req gamma) (node req beta) (A (Tmp id 0)) (A (Tmp id 2)) (A (Tmp id 3)) axis (Fin eps);
              pl_backward := layer_norm_backward (node req x) (node req y) (node req gamma) (node req beta) (A (Tmp id 0)) (A (Tmp id 1)) (A (Tmp id 2)) (A (Tmp id 3)) axis |};
  ly_saved := fun vs M => M (Tmp id 0) = Some (fin (ln_norm (vshape y) axis eps (vs 0%nat))) /\ M (Tmp id 3) = Some (fin (ln_inv (vshape y) axis eps (vs 0%nat))) |}.

Lemma fiber_same b s b' s' axis k : fiber_match b s axis k -> same_tiling b' b -> same_tiling s' s -> fiber_match b' s' axis k.
Proof. intros (H0 & H1 & H2 & H3) [E1 E2] [E3 E4]. unfold fiber_match. rewrite E1, E2, E3, E4. auto. Qed.

Lemma ln_layer_ok x y gamma beta axis eps id : ln_ok x y gamma beta axis eps id -> layer_ok req (ln_layer x y gamma beta axis eps id).
Proof.
  intros [[Ux Nx] [Uy Ny] [Ug Ng] [Ub Nb] Rx Ry Rg Rb Hxy Hgy Hby HS Fg Fb Ut T0 T1 T2 T3 He].
  destruct (Nx Rx) as [Ugx Tgx]. destruct (Ny Ry) as [Ugy Tgy]. destruct (Ng Rg) as [Ugg Tgg]. destruct (Nb Rb) as [Ugb Tgb].
  assert (U0 : U (Tmp id 0)) by (apply Ut; lia). assert (U1 : U (Tmp id 1)) by (apply Ut; lia).
  assert (U2 : U (Tmp id 2)) by (apply Ut; lia). assert (U3 : U (Tmp id 3)) by (apply Ut; lia). clear Ut.
  assert (Ha : (0 <= axis < zlen (vshape y))%Z) by apply T2.
  set (sh := vshape y) in *. set (l := zn sh axis).
  assert (P : pos sh) by (apply wf_ps, wf_wft, UW; assumption).
  assert (Hl : (0 < l)%Z) by (apply pos_zn; assumption). assert (Hl' := IZR_l l Hl).
  assert (Esx : t_shape (A (Val x)) = sh) by apply HS.
  assert (Es0 : t_shape (A (Tmp id 0)) = sh) by apply T0. assert (Es1 : t_shape (A (Tmp id 1)) = sh) by apply T1.
  assert (Esy : t_shape (A (Grad y)) = sh) by apply Tgy.
  assert (Es2 : t_shape (A (Tmp id 2)) = del axis sh) by apply T2. assert (Es3 : t_shape (A (Tmp id 3)) = del axis sh) by apply T3.
  assert (Fbk : forall idx, inb sh idx -> fib axis 0 idx = [zn idx axis]) by (intros idx Hi; apply fib_last; apply inb_zlen in Hi; lia).
  assert (Sq : sqrt (IZR l) * sqrt (IZR l) = IZR l) by (apply sqrt_sqrt; lra).
  assert (Sp : 0 < sqrt (IZR l)) by (apply sqrt_lt_R0; assumption).
  split; [|split].
  - intros vs M M' HM [H0 H3]. cbn [ly_id ln_layer ly_saved] in *. rewrite !HM. split; assumption.
  - intros vs M G s Hs HD Hin. cbn [ly_py pl_forward ln_layer ly_m ml_out ml_F ly_saved ly_id]. unfold layer_norm_forward. cbn [node m_val m_grad].
    assert (Ex : ov req G M (Val x) = Some (fin (vs 0%nat))) by (apply (Hin 0%nat); cbn; lia).
    assert (Eg : ov req G M (Val gamma) = Some (fin (vs 1%nat))) by (apply (Hin 1%nat); cbn; lia).
    assert (Eb : ov req G M (Val beta) = Some (fin (vs 2%nat))) by (apply (Hin 2%nat); cbn; lia).
    rewrite Esx. fold l. set (f := vs 0%nat) in *.
    replace (o_div o_one (o_ofZ l)) with (Fin (1 / IZR l)) by (symmetry; apply x_div_fin; lra).
    replace (o_div o_one (o_sqrt (o_ofZ l))) with (Fin (1 / sqrt (IZR l))).
    2:{ cbn [o_ofZ o_sqrt Xops]. rewrite x_sqrt_fin by lra. symmetry. apply x_div_fin. lra. }
    change (@minus1 XR _) with (Fin (- (1))). change (@o_one XR _) with (Fin 1). change (@o_zero XR _) with (Fin 0).
    set (mean := fun d => rmean l (row axis f d)). set (cen := fun idx => f idx - mean (del axis idx)).
    set (sd := fun d => sqrt (rvar l (row axis f d))). set (inv := ln_inv sh axis eps f). set (nm := ln_norm sh axis eps f).
    eapply py_tmp; [apply (h_sum_slice (1 / IZR l) 0 _ s (Val x) (Tmp id 2) axis f (fun _ => 0) mean Hs Ux U2)|].
    { congruence. } { eapply slice_same; [exact T2|assumption|split; reflexivity]. } { assumption. } { left; reflexivity. }
    { intros d _. unfold mean, rmean, row. rewrite Esx. fold l. ring. }
    intros s1 H1. eapply py_tmp; [apply (h_add_slice3 (-(1)) 1 _ s1 (Tmp id 2) (Val x) (Tmp id 0) axis mean f cen H1 U2 Ux U0)|].
    { congruence. } { congruence. } { eapply slice_same; [exact T2|assumption|split; reflexivity]. } { eapply same_trans; [exact T0|apply same_sym; assumption]. }
    { apply upd_eq. } { cbn [ov]. rewrite upd_ne by congruence. exact Ex. } { intros idx _. unfold cen. ring. }
    intros s2 H2. eapply py_tmp; [apply (h_norm_slice (1 / sqrt (IZR l)) _ s2 (Tmp id 0) (Tmp id 3) axis cen sd H2 U0 U3)|].
    { congruence. } { eapply slice_same; [exact T3|assumption|split; reflexivity]. } { apply upd_eq. }
    { intros d Hd. unfold sd. f_equal. rewrite Es0. fold l. rewrite Es3 in Hd. unfold rvar. f_equal.
      - rewrite <- Sq at 3. field. lra.
      - apply Rsum_ext. intros k Hk. destruct (ins_inb axis sh k d Ha Hk Hd) as (_ & _ & Ed). unfold cen. rewrite Ed. reflexivity. }
    intros s3 H3. eapply py_tmp; [apply (h_hypot_inv eps _ s3 (Tmp id 3) sd inv He H3 U3)|].
    { apply upd_eq. }
    { intros d _. unfold sd, inv, ln_inv, rinv. fold l. rewrite sqrt_sqrt by (apply rvar_nonneg; assumption). reflexivity. }
    intros s4 H4. eapply py_tmp; [apply (h_prod_slice 1 _ s4 (Tmp id 3) (Tmp id 0) axis inv cen nm H4 U3 U0)|].
    { congruence. } { eapply slice_same; [exact T3|assumption|split; reflexivity]. } { apply upd_eq. } { cbn [ov]. rewrite !upd_ne by congruence. apply upd_eq. }
    { intros idx _. unfold inv, cen, nm, ln_inv, ln_norm, mean. fold l. ring. }
    intros s5 H5. eapply py_val; [apply (h_prod_fiber3 1 _ s5 (Val gamma) (Tmp id 0) (Val y) axis (vs 1%nat) nm (fun idx => vs 1%nat [zn idx axis] * nm idx) H5 Ug U0 Uy)|].
    { congruence. } { congruence. } { assumption. } { assumption. } { cbn [ov]. rewrite !upd_ne by congruence. exact Eg. } { apply upd_eq. }
    { intros idx Hi. rewrite Fbk by assumption. ring. }
    intros s6 H6. eapply py_val; [apply (h_add_fiber 1 1 _ s6 (Val beta) (Val y) axis 0 (vs 2%nat) (fun idx => vs 1%nat [zn idx axis] * nm idx) (ln_F sh axis eps vs) ltac:(lra) H6 Ub Uy)|].
    { congruence. } { assumption. } { cbn [ov]. rewrite !upd_ne by congruence. exact Eb. } { apply upd_eq. }
    { intros idx Hi. rewrite Fbk by assumption. unfold ln_F. fold f nm. ring. }
    intros s7 H7. apply py_nil. eexists. split; [exact H7|]. split; [apply upd_eq|]. split; [split|split].
    + rewrite !upd_ne by congruence. apply upd_eq.
    + rewrite !upd_ne by congruence. apply upd_eq.
    + intros n Hn. rewrite !upd_ne by congruence. reflexivity.
    + intros k i Hk. rewrite !upd_ne by congruence. reflexivity.
  - intros vs M G s Hs HD Hin [Sn Si]. cbn [ly_py pl_backward ln_layer ly_m ml_out ml_F ly_saved ly_id] in *. unfold layer_norm_backward. cbn [node m_val m_grad].
    assert (Ex : M (Val x) = Some (fin (vs 0%nat))) by (apply (Hin 0%nat); cbn; lia).
    assert (Eg : M (Val gamma) = Some (fin (vs 1%nat))) by (apply (Hin 1%nat); cbn; lia).
    rewrite Esx. fold l. set (f := vs 0%nat) in *. set (nm := ln_norm sh axis eps f) in *. set (inv := ln_inv sh axis eps f) in *. set (gy := G y).
    change (@minus1 XR _) with (Fin (- (1))). change (@o_one XR _) with (Fin 1). change (@o_zero XR _) with (Fin 0).
    replace (o_div (Fin 1) (o_ofZ l)) with (Fin (1 / IZR l)) by (symmetry; apply x_div_fin; lra).
    replace (o_div (Fin (- (1))) (o_ofZ l)) with (Fin (- (1) / IZR l)) by (symmetry; apply x_div_fin; lra).
    set (G1 := addg beta (fun d => fiber_sum sh axis 0 d gy) G).
    eapply (py_grad_always req M G s beta (fun d => fiber_sum sh axis 0 d gy)); [assumption| |].
    { apply (h_sum_fiber 1 1 (ov req G M) s (Grad y) (Grad beta) axis 0 gy (G beta)); try assumption.
      - congruence. - eapply fiber_same; eassumption. - apply ov_grad; assumption. - apply ov_grad; assumption.
      - intros d _. rewrite Esy. ring. }
    intros s1 H1. fold G1 in H1. assert (Gy1 : G1 y = gy) by (apply addg_ne; assumption).
    set (G2 := addg gamma (fun d => fiber_sum sh axis 0 d (fun idx => gy idx * nm idx)) G1).
    eapply (py_grad_always req M G1 s1 gamma (fun d => fiber_sum sh axis 0 d (fun idx => gy idx * nm idx))); [assumption| |].
    { apply (h_sumprod_fiber 1 1 (ov req G1 M) s1 (Grad y) (Tmp id 0) (Grad gamma) axis gy nm (G1 gamma)); try assumption.
      - congruence. - congruence. - eapply fiber_same; [exact Fg|assumption|assumption]. - eapply same_trans; [exact T0|apply same_sym; assumption].
      - rewrite ov_grad by assumption. rewrite Gy1. reflexivity. - apply ov_grad; assumption.
      - intros d _. rewrite Esy. ring. }
    intros s2 H2. fold G2 in H2. assert (Gy2 : G2 y = gy) by (unfold G2; rewrite addg_ne; assumption).
    set (gg := ln_gg axis vs gy).
    assert (Ov : forall z, match z with Grad _ => False | _ => True end -> forall N, ov req G2 N z = N z) by (intros [n|n|k i] Hz N; [reflexivity|contradiction|reflexivity]).
    eapply py_tmp; [apply (h_prod_fiber3 1 _ s2 (Val gamma) (Grad y) (Tmp id 1) axis (vs 1%nat) gy gg H2 Ug Ugy U1)|].
    { congruence. } { congruence. } { eapply fiber_same; [exact Fg|assumption|split; reflexivity]. } { eapply same_trans; [exact Tgy|apply same_sym; assumption]. }
    { exact Eg. } { rewrite ov_grad by assumption. rewrite Gy2. reflexivity. } { intros idx Hi. rewrite Es1 in Hi. rewrite Fbk by assumption. unfold gg, ln_gg. ring. }
    intros s3 H3. set (m1 := fun d => - (1 / IZR l * Rsum l (fun k => gg (ins axis k d) * nm (ins axis k d)))).
    eapply py_tmp; [apply (h_sumprod_slice (- (1) / IZR l) 0 _ s3 (Tmp id 1) (Tmp id 0) (Tmp id 2) axis gg nm (fun _ => 0) m1 H3 U1 U0 U2)|].
    { congruence. } { congruence. } { eapply slice_same; [exact T2|assumption|split; reflexivity]. } { eapply same_trans; [exact T0|apply same_sym; assumption]. }
    { apply upd_eq. } { cbn [ov]. rewrite !upd_ne by congruence. exact Sn. } { left; reflexivity. } { intros d _. rewrite Es1. fold l. unfold m1. field. lra. }
    intros s4 H4. eapply py_tmp; [apply (h_prod_slice 1 _ s4 (Tmp id 2) (Tmp id 0) axis m1 nm (fun idx => m1 (del axis idx) * nm idx) H4 U2 U0)|].
    { congruence. } { eapply slice_same; [exact T2|assumption|split; reflexivity]. } { apply upd_eq. } { cbn [ov]. rewrite !upd_ne by congruence. exact Sn. } { intros idx _. ring. }
    intros s5 H5. eapply py_tmp; [apply (h_axpy 1 _ s5 (Tmp id 1) (Tmp id 0) gg (fun idx => m1 (del axis idx) * nm idx) (fun idx => gg idx + m1 (del axis idx) * nm idx) H5 U1 U0)|].
    { congruence. } { eapply same_trans; [exact T1|apply same_sym; assumption]. } { cbn [ov]. rewrite !upd_ne by congruence. apply upd_eq. } { apply upd_eq. } { intros; ring. }
    intros s6 H6. set (m2 := fun d => 1 / IZR l * Rsum l (fun k => gg (ins axis k d))).
    eapply py_tmp; [apply (h_sum_slice (1 / IZR l) 0 _ s6 (Tmp id 1) (Tmp id 2) axis gg (fun _ => 0) m2 H6 U1 U2)|].
    { congruence. } { eapply slice_same; [exact T2|assumption|split; reflexivity]. } { cbn [ov]. rewrite !upd_ne by congruence. apply upd_eq. } { left; reflexivity. } { intros d _. rewrite Es1. fold l. unfold m2. ring. }
    intros s7 H7. eapply py_tmp; [apply (h_add_slice (- (1)) 1 _ s7 (Tmp id 2) (Tmp id 0) axis m2 (fun idx => gg idx + m1 (del axis idx) * nm idx) (fun idx => gg idx + m1 (del axis idx) * nm idx - m2 (del axis idx)) H7 U2 U0)|].
    { congruence. } { eapply slice_same; [exact T2|assumption|split; reflexivity]. } { apply upd_eq. } { cbn [ov]. rewrite upd_ne by congruence. apply upd_eq. } { intros; ring. }
    intros s8 H8. eapply py_tmp; [apply (h_prod_slice 1 _ s8 (Tmp id 3) (Tmp id 0) axis inv (fun idx => gg idx + m1 (del axis idx) * nm idx - m2 (del axis idx)) (ln_dx sh axis eps vs gy) H8 U3 U0)|].
    { congruence. } { eapply slice_same; [exact T3|assumption|split; reflexivity]. } { cbn [ov]. rewrite !upd_ne by congruence. exact Si. } { apply upd_eq. }
    { intros idx _. unfold ln_dx. fold l f nm inv gg. unfold m1, m2. ring. }
    intros s9 H9. eapply (py_grad_always req _ G2 s9 x (ln_dx sh axis eps vs gy)); [assumption| |].
    { apply (h_axpy 1 _ s9 (Tmp id 0) (Grad x) (ln_dx sh axis eps vs gy) (G2 x) _ H9 U0 Ugx).
      - congruence. - eapply same_trans; [exact T0|]. eapply same_trans; [apply same_sym; exact HS|apply same_sym; assumption].
      - apply upd_eq. - apply ov_grad; assumption. - intros; ring. }
    intros s10 H10. apply py_nil. eexists. eexists. split; [exact H10|]. split; [|split].
    + intros n idx Hn. unfold acc, contrib, arity, inp, Nsum, addg, G2, G1.
      cbn [ml_ins ml_dl ml_out List.length seq nth]. rewrite !Rsuml_cons, Rsuml_nil. cbn [ln_dl]. fold sh gy f. fold nm. unfold addg. ring.
    + intros n. rewrite !upd_ne by congruence. reflexivity.
    + intros k i Hk. rewrite !upd_ne by congruence. reflexivity.
Qed.
Lemma ln_vjp x y gamma beta axis eps id : ln_ok x y gamma beta axis eps id -> vjp vshape (ly_m (ln_layer x y gamma beta axis eps id)).
Proof.
  intros [Nx Ny Ng Nb _ _ _ _ _ _ _ [HS _] (_ & Ha & Fg & _) (_ & _ & Fb & _) _ _ _ _ _ He]. apply tv_vjp.
  unfold arity, inp. cbn [ly_m ln_layer ml_ins ml_out ml_D ml_F ml_dl List.length].
  assert (P := node_pos req y Ny). rewrite Z.sub_0_r in Ha.
  apply ln_tv; try assumption.
  - cbn [nth]. unfold vshape. rewrite Fg. apply fib_last. assumption.
  - cbn [nth]. unfold vshape. rewrite Fb. apply fib_last. assumption.
Qed.
End Layer.
