(** * C36: the derivative kernels compute the derivatives of the activations *)
From Coq Require Import Reals Lra.
From Coquelicot Require Import Coquelicot.
From Verif Require Import Base Spec Geometry Traits TraitsProofs Runtime Ops TensorSem ElemGeneric OneOut
  KernelsElem ElemOps ElemProofs Formulas Concrete RealOps PropElem PropElem2 PropElemR.
Local Open Scope R_scope.

(** ** The textbook functions *)
Definition relu (x : R) : R := Rmax x 0.
(** distribution function of the standard normal law *)
Definition Phi (x : R) : R := / 2 + / sqrt (2 * PI) * RInt (fun t => exp (- (t ^ 2 / 2))) 0 x.
Definition gelu (x : R) : R := x * Phi x.
Definition tanh (x : R) : R := (exp x - exp (- x)) / (exp x + exp (- x)).
(** the tanh approximation of gelu *)
Definition gelu_tanh (x : R) : R := x / 2 * (1 + tanh (sqrt (2 / PI) * (x + 44715 / 1000000 * x ^ 3))).

(** ** Derivatives *)
Lemma sqrt_pi_pos : 0 < sqrt PI.
Proof. apply sqrt_lt_R0, PI_RGT_0. Qed.
Lemma sqrt2_pos : 0 < sqrt 2.
Proof. apply sqrt_lt_R0. lra. Qed.
Lemma sqrt_2pi : sqrt (2 * PI) = sqrt 2 * sqrt PI.
Proof. apply sqrt_mult; [lra|pose proof PI_RGT_0; lra]. Qed.
Lemma sqrt2_sq : sqrt 2 * sqrt 2 = 2.
Proof. apply sqrt_sqrt. lra. Qed.

Lemma cont_gauss (x : R) : continuous (fun t => exp (- (t * t))) x.
Proof.
  apply (ex_derive_continuous (K := R_AbsRing) (V := R_NormedModule)). auto_derive. exact I.
Qed.
Lemma cont_gauss2 (x : R) : continuous (fun t => exp (- (t ^ 2 / 2))) x.
Proof.
  apply (ex_derive_continuous (K := R_AbsRing) (V := R_NormedModule)). auto_derive. exact I.
Qed.
Lemma int_gauss a b : ex_RInt (fun t => exp (- (t * t))) a b.
Proof. apply (ex_RInt_continuous (V := R_CompleteNormedModule)). intros z _. apply cont_gauss. Qed.
Lemma int_gauss2 a b : ex_RInt (fun t => exp (- (t ^ 2 / 2))) a b.
Proof. apply (ex_RInt_continuous (V := R_CompleteNormedModule)). intros z _. apply cont_gauss2. Qed.

Lemma Phi_derive x : is_derive Phi x (/ sqrt (2 * PI) * exp (- (x ^ 2 / 2))).
Proof.
  unfold Phi.
  assert (D : is_derive (fun y => RInt (fun t => exp (- (t ^ 2 / 2))) 0 y) x (exp (- (x ^ 2 / 2)))).
  { apply (is_derive_RInt (V := R_CompleteNormedModule) (fun t => exp (- (t ^ 2 / 2))) _ 0 x).
    - exists (mkposreal 1 Rlt_0_1). intros y _. apply (RInt_correct (V := R_CompleteNormedModule)), int_gauss2.
    - apply cont_gauss2. }
  evar_last; [apply (is_derive_plus (K := R_AbsRing) (V := R_NormedModule) (fun _ => / 2)); [apply is_derive_const|apply (is_derive_scal (fun y => RInt _ 0 y)), D]|].
  unfold plus, zero. cbn. ring.
Qed.

(** Phi is half the complementary error function at -x / sqrt 2. *)
Lemma Phi_erfc x : Phi x = / 2 * erfc (- 1 / sqrt 2 * x).
Proof.
  unfold Phi, erfc. pose proof sqrt2_pos as S2. pose proof sqrt_pi_pos as Sp.
  pose proof (RInt_comp_lin (V := R_CompleteNormedModule) (fun t => exp (- (t * t))) (- 1 / sqrt 2) 0 0 x) as C.
  rewrite !Rmult_0_r, !Rplus_0_r in C. specialize (C (int_gauss _ _)). set (J := RInt (fun t => exp (- (t ^ 2 / 2))) 0 x).
  assert (E : RInt (fun t : R => exp (- (t * t))) 0 (- 1 / sqrt 2 * x) = - 1 / sqrt 2 * J).
  { etransitivity; [symmetry; exact C|]. unfold J. etransitivity; [|apply (RInt_scal (V := R_CompleteNormedModule)), int_gauss2].
    apply (RInt_ext (V := R_CompleteNormedModule)).
    intros t _. f_equal. f_equal. f_equal. rewrite Rplus_0_r. pose proof sqrt2_sq as Q.
    replace (- 1 / sqrt 2 * t * (- 1 / sqrt 2 * t)) with (t ^ 2 / (sqrt 2 * sqrt 2)) by (field; apply Rgt_not_eq; assumption). rewrite Q. reflexivity. }
  rewrite E, sqrt_2pi. field. split; apply Rgt_not_eq; assumption.
Qed.
Lemma gelu_f x : gelu x = f_gelu x.
Proof. unfold gelu, f_gelu. rewrite Phi_erfc. unfold half. cbn [o_mul o_erfc o_div o_ofZ o_sqrt o_lit Rops]. field. Qed.
Lemma gelu_derive x : is_derive gelu x (f_dgelu x).
Proof.
  unfold gelu. pose proof sqrt2_pos as S2. pose proof sqrt_pi_pos as Sp.
  evar_last; [apply (is_derive_mult (fun x => x) Phi); [apply is_derive_id|apply Phi_derive|intros; apply Rmult_comm]|].
  unfold plus, mult, one. cbn -[Phi sqrt pow]. rewrite Phi_erfc. unfold f_dgelu, half. cbn [o_mul o_erfc o_div o_ofZ o_sqrt o_lit o_add o_exp o_neg o_one o_pi Rops].
  replace (- (1 / 2) * x * x) with (- (x ^ 2 / 2)) by (simpl; field). rewrite sqrt_2pi. field. split; apply Rgt_not_eq; assumption.
Qed.

(** [gelutanh] is z / (1 + exp (z (f3 + f4 z^2))). *)
Lemma g3_R : g3 = - 2 * sqrt (2 / PI).
Proof.
  unfold g3. cbn [o_mul o_div o_ofZ o_sqrt o_neg o_pi Rops]. rewrite sqrt_div by (try apply PI_RGT_0; lra). reflexivity.
Qed.
Lemma gt_exp z : gelu_tanh z = z / (1 + exp (z * (g3 + g4 * (z * z)))).
Proof.
  unfold gelu_tanh, tanh. set (u := sqrt (2 / PI) * (z + 44715 / 1000000 * z ^ 3)).
  replace (z * (g3 + g4 * (z * z))) with (- u + - u).
  - pose proof (exp_pos u) as P1. pose proof (exp_pos (- u)) as P2. rewrite exp_plus.
    assert (E : exp u = / exp (- u)) by (rewrite exp_Ropp, Rinv_inv; reflexivity). rewrite E in *. field.
    assert (0 < exp (- u) * exp (- u)) by (apply Rmult_lt_0_compat; assumption). repeat split; try (apply Rgt_not_eq; lra).
  - unfold g4. rewrite g3_R. cbn [o_mul o_lit Rops]. unfold u. field. 
Qed.
Lemma gt_inplace z : gelu_tanh z = f_gelutanh_inplace z.
Proof. rewrite gt_exp. unfold f_gelutanh_inplace. cbn [o_mul o_lit o_div o_one o_add o_exp Rops]. replace (z * (g3 + g4 * z * z)) with (z * (g3 + g4 * (z * z))) by ring. reflexivity. Qed.
Lemma gt_kernel z : gelu_tanh z = f_gelutanh z.
Proof.
  rewrite gt_exp. unfold f_gelutanh. cbv zeta. cbn [o_mul o_lit o_div o_one o_add o_sub o_exp Rops].
  replace ((g4 * z * z - (g3 + g4 * z * z - g3)) * z) with 0 by ring. rewrite exp_0, Rmult_1_l.
  replace ((g3 + g4 * z * z) * z) with (z * (g3 + g4 * (z * z))) by ring. reflexivity.
Qed.
Lemma logistic_derive (a b z : R) : is_derive (fun z => z / (1 + exp (z * (a + b * (z * z))))) z
  ((1 - z * (a + 3 * b * (z * z)) * (1 - 1 / (exp (z * (a + b * (z * z))) + 1))) * (1 / (exp (z * (a + b * (z * z))) + 1))).
Proof.
  pose proof (exp_pos (z * (a + b * (z * z)))) as P. auto_derive; [apply Rgt_not_eq; lra|].
  set (e := exp (z * (a + b * (z * z)))) in *. field. apply Rgt_not_eq; lra.
Qed.
Lemma gt_derive z : is_derive gelu_tanh z (f_dgelutanh z).
Proof.
  apply (is_derive_ext (fun z => z / (1 + exp (z * (g3 + g4 * (z * z)))))); [intros; symmetry; apply gt_exp|].
  exact (logistic_derive g3 g4 z).
Qed.
Lemma relu_derive x : x <> 0 -> is_derive relu x (if Rlt_dec 0 x then 1 else 0).
Proof.
  intros Hx. unfold relu. destruct (Rlt_dec 0 x) as [P|P].
  - apply (is_derive_ext_loc (fun x => x)); [|apply (is_derive_id (K := R_AbsRing))].
    exists (mkposreal x P). intros y Hy. unfold ball in Hy. cbn in Hy. unfold AbsRing_ball, abs, minus, plus, opp in Hy. cbn in Hy.
    apply Rabs_def2 in Hy. rewrite Rmax_left; lra.
  - assert (N : 0 < - x) by lra. apply (is_derive_ext_loc (fun _ => 0)); [|apply (is_derive_const (K := R_AbsRing) (V := R_NormedModule))].
    exists (mkposreal (- x) N). intros y Hy. unfold ball in Hy. cbn in Hy. unfold AbsRing_ball, abs, minus, plus, opp in Hy. cbn in Hy.
    apply Rabs_def2 in Hy. rewrite Rmax_right; lra.
Qed.

(** ** The operations *)
Lemma unary_ext {T} {O : Ops T} op (f g : T -> T) : (forall x, f x = g x) -> unary_elementwise op f -> unary_elementwise op g.
Proof.
  intros E H A s HA Hs. eapply runs_weaken; [apply H; assumption|]. intros s' _ (Ha & Hb).
  split; [|assumption]. intros idx Hi. rewrite Ha by assumption. apply E.
Qed.
Lemma ternary_ext {T} {O : Ops T} op (f g : T -> T -> T -> T) : (forall x y d, f x y d = g x y d) -> ternary_elementwise op f -> ternary_elementwise op g.
Proof.
  intros E H A B C s HA HB HC. destruct (H A B C s HA HB HC) as [H1 H2]. split; [|assumption].
  intros Ht Ht2 H3 H4 H5 H6 H7. eapply runs_weaken; [apply H1; assumption|]. intros s' _ (Ha & Hb).
  split; [|assumption]. intros idx Hi. rewrite Ha by assumption. apply E.
Qed.

(** The forward operations apply the textbook functions. *)
Theorem C36_relu : unary_elementwise relu_async relu /\ binary_elementwise relu_forward_async (fun x _ => relu x).
Proof. split; [exact C12_relu|exact C12_relu_forward]. Qed.
Theorem C36_gelu : unary_elementwise gelu_async gelu.
Proof. eapply unary_ext; [|apply C12_gelu]. intros x. symmetry. apply gelu_f. Qed.
Theorem C36_gelutanh : binary_elementwise gelutanh_async (fun x _ => gelu_tanh x) /\ unary_elementwise gelutanh_inplace_async gelu_tanh.
Proof.
  split.
  - eapply binary_ext; [|apply C12_gelutanh]. intros x d. symmetry. apply gt_kernel.
  - eapply unary_ext; [|apply C12_gelutanh_inplace]. intros x. symmetry. apply gt_inplace.
Qed.

(** [is_derivative f f']: f' x is the derivative of f at x, for every real x. *)
Definition is_derivative (f f' : R -> R) : Prop := forall x, is_derive f x (f' x).

Theorem C36_gelu_derivative : exists gelu' : R -> R, is_derivative gelu gelu' /\
  unary_elementwise dgelu_async gelu' /\ ternary_elementwise gelu_backward_async (fun x dy dx => dx + gelu' x * dy).
Proof. exists f_dgelu. split; [exact gelu_derive|]. split; [exact C12_dgelu|exact C12_gelu_backward]. Qed.

Theorem C36_gelutanh_derivative : exists gelu_tanh' : R -> R, is_derivative gelu_tanh gelu_tanh' /\
  unary_elementwise dgelutanh_async gelu_tanh' /\ ternary_elementwise gelutanh_backward_async (fun x dy dx => dx + gelu_tanh' x * dy).
Proof.
  exists f_dgelutanh. split; [exact gt_derive|]. split; [exact C12_dgelutanh|].
  eapply ternary_ext; [|apply C12_gelutanh_backward]. intros x y d. reflexivity.
Qed.

(** relu has no derivative at 0; the code uses 0 there. *)
Theorem C36_relu_derivative : exists relu' : R -> R, (forall x, x <> 0 -> is_derive relu x (relu' x)) /\ relu' 0 = 0 /\
  unary_elementwise drelu_async relu' /\ ternary_elementwise relu_backward_async (fun x dy dx => dx + relu' x * dy).
Proof.
  exists (fun x => if Rlt_dec 0 x then 1 else 0). split; [exact relu_derive|]. split; [destruct (Rlt_dec 0 0); lra|]. split.
  - eapply unary_ext; [|apply C12_drelu]. intros x. unfold f_drelu. cbn [o_zero o_one o_ltb Rops]. unfold Rltb. destruct (Rlt_dec 0 x); reflexivity.
  - eapply ternary_ext; [|apply C12_relu_backward]. intros x y d. cbn [o_zero o_ltb o_add Rops]. unfold Rltb. destruct (Rlt_dec 0 x); lra.
Qed.
Theorem C36_relu_kink : ~ ex_derive relu 0.
Proof.
  intros [l D]. apply is_derive_Reals in D.
  assert (Q : forall e, 0 < e -> Rabs (1 - l) < e /\ Rabs (0 - l) < e).
  { intros e He. destruct (D e He) as [d Hd]. pose proof (cond_pos d) as Pd. split.
    - specialize (Hd (d / 2)). unfold relu in Hd. rewrite Rplus_0_l, Rmax_left, Rmax_left in Hd by lra.
      replace ((d / 2 - 0) / (d / 2)) with 1 in Hd by (field; lra). apply Hd; [lra|]. rewrite Rabs_right; lra.
    - specialize (Hd (- (d / 2))). unfold relu in Hd. rewrite Rplus_0_l, Rmax_right, Rmax_left in Hd by lra.
      replace ((0 - 0) / - (d / 2)) with 0 in Hd by (field; lra). apply Hd; [lra|]. rewrite Rabs_left; lra. }
  destruct (Q (1 / 2) ltac:(lra)) as [Q1 Q2]. apply Rabs_def2 in Q1, Q2. lra.
Qed.

(** A tensor of shape 3x2 in tiles of 2x2 meets the hypotheses of the schemes. *)
Example C36_case : let x := std_tensor [3; 2]%Z [2; 2]%Z 0%Z in let dy := std_tensor [3; 2]%Z [2; 2]%Z 10%Z in let dx := std_tensor [3; 2]%Z [2; 2]%Z 20%Z in
  let s := put x (fun i => IZR (zn i 0%Z)) (put dy (fun _ => 5) (put dx (fun _ => 7) (fun _ => BF []))) in
  exists ts s', relu_backward_async x dy dx = Ok ts /\ steps (ts, s) ([], s') /\ elem s' dx [2; 1]%Z = 12 /\ elem s' dx [0; 1]%Z = 7.
Proof.
  intros x dy dx s. assert (Wx : wf_tensor x) by std_wf_tac. assert (Wy : wf_tensor dy) by std_wf_tac. assert (Wd : wf_tensor dx) by std_wf_tac.
  assert (Dxy : disj x dy) by (apply std_disj; vm_compute; (left; discriminate) || (right; discriminate)).
  assert (Dxd : disj x dx) by (apply std_disj; vm_compute; (left; discriminate) || (right; discriminate)).
  assert (Dyd : disj dy dx) by (apply std_disj; vm_compute; (left; discriminate) || (right; discriminate)).
  pose proof (wf_wft _ Wx) as Vx. pose proof (wf_wft _ Wy) as Vy. pose proof (wf_wft _ Wd) as Vd.
  destruct C36_relu_derivative as (r & D & D0 & _ & H).
  assert (I2 : inb (t_shape dx) [2; 1]%Z) by (unfold dx; rewrite std_shape; repeat constructor; lia).
  assert (I0 : inb (t_shape dx) [0; 1]%Z) by (unfold dx; rewrite std_shape; repeat constructor; lia).
  destruct (runs_ends _ _ _ (proj1 (H x dy dx s Wx Wy Wd) ltac:(split; reflexivity) ltac:(split; reflexivity)
     ltac:(apply put_stored, Vx) ltac:(apply put_stored_other; [assumption|apply disj_sym; assumption|apply put_stored; assumption])
     ltac:(apply put_stored_other; [assumption|apply disj_sym; assumption|apply put_stored_other; [assumption|apply disj_sym; assumption|apply put_stored; assumption]]) Dxd Dyd))
    as (ts & s' & E & P & V & _).
  exists ts, s'. split; [assumption|]. split; [assumption|].
  assert (Ex : forall i, inb (t_shape x) i -> elem s x i = IZR (zn i 0%Z)) by (intros; unfold s; apply (put_elem x (fun i => IZR (zn i 0%Z))); assumption).
  assert (Ey : forall i, inb (t_shape dy) i -> elem s dy i = 5).
  { intros i Hi. unfold s, put at 1. rewrite put_elem_other by (assumption || (apply disj_sym; assumption)). apply (put_elem dy (fun _ => 5)); assumption. }
  assert (Ed : forall i, inb (t_shape dx) i -> elem s dx i = 7).
  { intros i Hi. unfold s, put at 1. rewrite put_elem_other by (assumption || (apply disj_sym; assumption)). unfold put at 1. rewrite put_elem_other by (assumption || (apply disj_sym; assumption)). apply (put_elem dx (fun _ => 7)); assumption. }
  rewrite !V, !Ed, !Ex, !Ey by assumption. change (zn [2; 1]%Z 0%Z) with 2%Z. change (zn [0; 1]%Z 0%Z) with 0%Z. rewrite D0.
  replace (r 2) with 1; [lra|]. pose proof (is_derive_unique _ _ _ (D 2 ltac:(lra))) as U1. rewrite <- U1. symmetry. apply is_derive_unique.
  pose proof (relu_derive 2 ltac:(lra)) as U2. destruct (Rlt_dec 0 2); [assumption|lra].
Qed.
