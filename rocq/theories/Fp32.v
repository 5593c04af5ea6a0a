(** * Finite binary32 numbers as reals, and the rounding errors of their operations

    Facts about the operations of Binary32 (those of the standard library's SpecFloat), obtained
    from Flocq's theorems about BinarySingleNaN. *)
From Coq Require Import Reals Lra ZArith Lia Floats.SpecFloat.
From Flocq Require Import Core BinarySingleNaN Plus_error Relative.
From Verif Require Import Base Ops Binary32.
Local Open Scope R_scope.

(** A finite binary32 number: the exponent and mantissa are in range; its value is ± m 2^e. *)
Definition fin32 (x : f32) : Prop := valid_binary 24 128 x = true /\ is_finite_SF x = true.
Definition fval (x : f32) : R := SF2R radix2 x.
(** Unit roundoff 2^-24 and half the smallest positive number, 2^-150. *)
Definition u32 : R := bpow radix2 (-24).
Definition eta32 : R := bpow radix2 (-150).
Notation max32 := (bpow radix2 128).

#[local] Instance p24 : Prec_gt_0 24 := eq_refl.
#[local] Instance p128 : Prec_lt_emax 24 128 := eq_refl.
Notation rnd := (round radix2 (FLT_exp (-149) 24) (Znearest (fun x => negb (Z.even x)))).
Notation format := (generic_format radix2 (FLT_exp (-149) 24)).

Lemma nearest_equiv s m l : round_nearest_even m l = choice_mode mode_NE s m l.
Proof. case l; [reflexivity|intro c]. case c; [|reflexivity..]. simpl; unfold Round.cond_incr; now case Z.even. Qed.
Lemma round_aux_equiv sx mx ex lx : SpecFloat.binary_round_aux 24 128 sx mx ex lx = BinarySingleNaN.binary_round_aux 24 128 mode_NE sx mx ex lx.
Proof.
  unfold SpecFloat.binary_round_aux, BinarySingleNaN.binary_round_aux. set (m := shr_fexp _ _ _). case m; intros m' e'; simpl.
  now rewrite (nearest_equiv sx).
Qed.
Lemma round_equiv s m e : SpecFloat.binary_round 24 128 s m e = BinarySingleNaN.binary_round 24 128 mode_NE s m e.
Proof.
  unfold SpecFloat.binary_round, BinarySingleNaN.binary_round, shl_align_fexp. set (z := shl_align _ _ _); case z as [mz ez]. apply round_aux_equiv.
Qed.
Lemma normalize_equiv m e szero : SpecFloat.binary_normalize 24 128 m e szero = B2SF (BinarySingleNaN.binary_normalize 24 128 p24 p128 mode_NE m e szero).
Proof. case m as [|p|p]; [now simpl|simpl; rewrite B2SF_SF2B; apply round_equiv..]. Qed.
Notation b32 := (binary_float 24 128).
Lemma add_equiv (x y : b32) : f32_add (B2SF x) (B2SF y) = B2SF (Bplus mode_NE x y).
Proof.
  unfold f32_add. case x as [sx|sx| |sx mx ex Bx]; case y as [sy|sy| |sy my ey By]; [now (trivial || simpl; case Bool.eqb)..|].
  apply normalize_equiv.
Qed.
Lemma sub_equiv (x y : b32) : f32_sub (B2SF x) (B2SF y) = B2SF (Bminus mode_NE x y).
Proof.
  unfold f32_sub. case x as [sx|sx| |sx mx ex Bx]; case y as [sy|sy| |sy my ey By]; [now (trivial || simpl; case Bool.eqb)..|].
  simpl. unfold Zminus. rewrite <- cond_Zopp_negb. apply normalize_equiv.
Qed.
Lemma mul_equiv (x y : b32) : f32_mul (B2SF x) (B2SF y) = B2SF (Bmult mode_NE x y).
Proof.
  unfold f32_mul. case x as [sx|sx| |sx mx ex Bx]; case y as [sy|sy| |sy my ey By]; [now trivial..|].
  simpl. rewrite B2SF_SF2B. apply round_aux_equiv.
Qed.
Lemma fin_b32 x : fin32 x -> exists b : b32, B2SF b = x /\ is_finite b = true /\ B2R b = fval x.
Proof.
  intros [H1 H2]. exists (SF2B x H1). split; [apply B2SF_SF2B|]. split; [rewrite is_finite_SF2B; assumption|]. unfold fval. apply B2R_SF2B.
Qed.
Lemma b32_fin (b : b32) : is_finite b = true -> fin32 (B2SF b) /\ fval (B2SF b) = B2R b.
Proof.
  intros H. split; [split; [apply valid_binary_B2SF|rewrite is_finite_SF_B2SF; assumption]|]. unfold fval. apply SF2R_B2SF.
Qed.
Lemma fval_format x : fin32 x -> format (fval x).
Proof. intros H. destruct (fin_b32 x H) as (b & _ & _ & <-). exact (generic_format_B2R 24 128 b). Qed.

(** The operations round the exact result when this does not overflow. *)
Lemma add_val x y : fin32 x -> fin32 y -> Rabs (rnd (fval x + fval y)) < max32 ->
  fin32 (f32_add x y) /\ fval (f32_add x y) = rnd (fval x + fval y).
Proof.
  intros Hx Hy Ho. destruct (fin_b32 x Hx) as (a & <- & A2 & A3), (fin_b32 y Hy) as (b & <- & B2 & B3). rewrite add_equiv.
  pose proof (Bplus_correct 24 128 p24 p128 mode_NE a b A2 B2) as H. rewrite A3, B3 in H.
  rewrite Rlt_bool_true in H by exact Ho. destruct H as (H1 & H2 & _). destruct (b32_fin _ H2) as [K1 K2]. split; [exact K1|]. rewrite K2. exact H1.
Qed.
Lemma sub_val x y : fin32 x -> fin32 y -> Rabs (rnd (fval x - fval y)) < max32 ->
  fin32 (f32_sub x y) /\ fval (f32_sub x y) = rnd (fval x - fval y).
Proof.
  intros Hx Hy Ho. destruct (fin_b32 x Hx) as (a & <- & A2 & A3), (fin_b32 y Hy) as (b & <- & B2 & B3). rewrite sub_equiv.
  pose proof (Bminus_correct 24 128 p24 p128 mode_NE a b A2 B2) as H. rewrite A3, B3 in H.
  rewrite Rlt_bool_true in H by exact Ho. destruct H as (H1 & H2 & _). destruct (b32_fin _ H2) as [K1 K2]. split; [exact K1|]. rewrite K2. exact H1.
Qed.
Lemma mul_val x y : fin32 x -> fin32 y -> Rabs (rnd (fval x * fval y)) < max32 ->
  fin32 (f32_mul x y) /\ fval (f32_mul x y) = rnd (fval x * fval y).
Proof.
  intros Hx Hy Ho. destruct (fin_b32 x Hx) as (a & <- & A2 & A3), (fin_b32 y Hy) as (b & <- & B2 & B3). rewrite mul_equiv.
  pose proof (Bmult_correct 24 128 p24 p128 mode_NE a b) as H. rewrite A3, B3 in H.
  rewrite Rlt_bool_true in H by exact Ho. destruct H as (H1 & H2 & _). rewrite A2, B2 in H2. destruct (b32_fin _ H2) as [K1 K2]. split; [exact K1|]. rewrite K2. exact H1.
Qed.

(** ** Rounding errors *)
Lemma u32_ro : u_ro radix2 24 = u32.
Proof. unfold u_ro, u32. rewrite <- (bpow_plus radix2 (-1)). reflexivity. Qed.
Lemma u32_val : u32 = / 16777216.
Proof. reflexivity. Qed.
Lemma u32_pos : 0 < u32. Proof. apply bpow_gt_0. Qed.
Lemma eta32_pos : 0 < eta32. Proof. apply bpow_gt_0. Qed.
Lemma u_ratio : u_ro radix2 24 / (1 + u_ro radix2 24) <= u32.
Proof.
  rewrite u32_ro. pose proof u32_pos as H. apply Rmult_le_reg_r with (1 + u32); [lra|]. unfold Rdiv. rewrite Rmult_assoc, Rinv_l by lra. nra.
Qed.
(** Rounding of sums has a relative error even when the result is tiny. *)
Lemma rnd_add a b : format a -> format b -> exists d, Rabs d <= u32 /\ rnd (a + b) = (a + b) * (1 + d).
Proof.
  intros Ha Hb. destruct (FLT_plus_error_N_ex radix2 (-149) 24 (fun x => negb (Z.even x)) a b Ha Hb) as (d & H1 & H2).
  exists d. split; [|exact H2]. eapply Rle_trans; [exact H1|apply u_ratio].
Qed.
Lemma rnd_mul a : exists d e, Rabs d <= u32 /\ Rabs e <= eta32 /\ rnd a = a * (1 + d) + e.
Proof.
  destruct (relative_error_N_FLT'_ex radix2 (-149) 24 eq_refl (fun x => negb (Z.even x)) a) as (d & e & H1 & H2 & _ & H3).
  exists d, e. split; [eapply Rle_trans; [exact H1|apply u_ratio]|]. split; [|exact H3].
  eapply Rle_trans; [exact H2|]. right. unfold eta32. change (/ 2) with (bpow radix2 (-1)). rewrite <- bpow_plus. reflexivity.
Qed.

(** For use: bounds by [B] below 2^127. *)
Lemma f_add x y : fin32 x -> fin32 y -> Rabs (fval x + fval y) <= bpow radix2 127 ->
  fin32 (f32_add x y) /\ exists d, Rabs d <= u32 /\ fval (f32_add x y) = (fval x + fval y) * (1 + d).
Proof.
  intros Hx Hy HB. destruct (rnd_add (fval x) (fval y) (fval_format x Hx) (fval_format y Hy)) as (d & D1 & D2).
  destruct (add_val x y Hx Hy) as [K1 K2].
  - rewrite D2, Rabs_mult. assert (Rabs (1 + d) <= 3/2). { rewrite u32_val in D1. apply Rabs_le_inv in D1. apply Rabs_le. lra. }
    change max32 with (bpow radix2 (1 + 127)). rewrite bpow_plus. change (bpow radix2 1) with 2. pose proof (bpow_gt_0 radix2 127). pose proof (Rabs_pos (fval x + fval y)). pose proof (Rabs_pos (1 + d)). nra.
  - split; [exact K1|]. exists d. split; [exact D1|]. rewrite K2. exact D2.
Qed.
Lemma f_sub x y : fin32 x -> fin32 y -> Rabs (fval x - fval y) <= bpow radix2 127 ->
  fin32 (f32_sub x y) /\ exists d, Rabs d <= u32 /\ fval (f32_sub x y) = (fval x - fval y) * (1 + d).
Proof.
  intros Hx Hy HB. destruct (rnd_add (fval x) (- fval y) (fval_format x Hx) (generic_format_opp _ _ _ (fval_format y Hy))) as (d & D1 & D2).
  change (fval x + - fval y) with (fval x - fval y) in D2.
  destruct (sub_val x y Hx Hy) as [K1 K2].
  - rewrite D2, Rabs_mult. assert (Rabs (1 + d) <= 3/2). { rewrite u32_val in D1. apply Rabs_le_inv in D1. apply Rabs_le. lra. }
    change max32 with (bpow radix2 (1 + 127)). rewrite bpow_plus. change (bpow radix2 1) with 2. pose proof (bpow_gt_0 radix2 127). pose proof (Rabs_pos (fval x - fval y)). pose proof (Rabs_pos (1 + d)). nra.
  - split; [exact K1|]. exists d. split; [exact D1|]. rewrite K2. exact D2.
Qed.
Lemma eta_small : eta32 <= / 2 * bpow radix2 127.
Proof. change (/ 2) with (bpow radix2 (-1)). rewrite <- bpow_plus. apply bpow_le. lia. Qed.
Lemma f_mul x y : fin32 x -> fin32 y -> Rabs (fval x * fval y) <= bpow radix2 126 ->
  fin32 (f32_mul x y) /\ exists d e, Rabs d <= u32 /\ Rabs e <= eta32 /\ fval (f32_mul x y) = fval x * fval y * (1 + d) + e.
Proof.
  intros Hx Hy HB. destruct (rnd_mul (fval x * fval y)) as (d & e & D1 & D2 & D3).
  destruct (mul_val x y Hx Hy) as [K1 K2].
  - rewrite D3. eapply Rle_lt_trans; [apply Rabs_triang|]. rewrite (Rabs_mult (fval x * fval y)). assert (Rabs (1 + d) <= 3/2). { rewrite u32_val in D1. apply Rabs_le_inv in D1. apply Rabs_le. lra. }
    change max32 with (bpow radix2 (1 + 1 + 126)). rewrite !bpow_plus. change (bpow radix2 1) with 2. pose proof eta_small as Hs. change (bpow radix2 127) with (bpow radix2 (1 + 126)) in Hs. rewrite bpow_plus in Hs. change (bpow radix2 1) with 2 in Hs.
    pose proof (bpow_gt_0 radix2 126). pose proof (Rabs_pos (fval x * fval y)). pose proof (Rabs_pos (1 + d)). nra.
  - split; [exact K1|]. exists d, e. split; [exact D1|]. split; [exact D2|]. rewrite K2. exact D3.
Qed.

(** Zero, one, and multiplication by one *)
Lemma fin_zero : fin32 o_zero. Proof. split; reflexivity. Qed.
Lemma fval_zero : fval o_zero = 0. Proof. reflexivity. Qed.
Lemma fin_one : fin32 o_one. Proof. split; reflexivity. Qed.
Lemma fval_one : fval o_one = 1.
Proof. unfold fval. change (o_one : f32) with (S754_finite false 8388608 (-23)). unfold SF2R, F2R. cbn [cond_Zopp Fnum Fexp]. change (IZR 8388608) with (bpow radix2 23). rewrite <- bpow_plus. reflexivity. Qed.
Lemma f_mul1 x : fin32 x -> fin32 (f32_mul o_one x) /\ fval (f32_mul o_one x) = fval x.
Proof.
  intros Hx. pose proof (fval_format x Hx) as HF. destruct (mul_val o_one x fin_one Hx) as [K1 K2]; rewrite fval_one, Rmult_1_l, round_generic in *; try assumption; try typeclasses eauto.
  - destruct (fin_b32 x Hx) as (b & _ & _ & <-). apply abs_B2R_lt_emax.
  - split; [exact K1|exact K2].
Qed.
