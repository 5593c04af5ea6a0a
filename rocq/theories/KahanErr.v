(** * The compensated summation in binary32: error bounds *)
From Coq Require Import Reals Lra ZArith Lia Floats.SpecFloat.
From Flocq Require Import Core BinarySingleNaN.
From Verif Require Import Base Spec Ops RSum SliceOps SliceProofs SliceReduce Binary32 Fp32.
Local Close Scope Z_scope.
Local Open Scope R_scope.

Lemma rm a b A B : Rabs a <= A -> Rabs b <= B -> Rabs (a * b) <= A * B.
Proof. intros H1 H2. rewrite Rabs_mult. apply Rmult_le_compat; try apply Rabs_pos; assumption. Qed.
Lemma ra a b A B : Rabs a <= A -> Rabs b <= B -> Rabs (a + b) <= A + B.
Proof. intros H1 H2. eapply Rle_trans; [apply Rabs_triang|]. lra. Qed.
Lemma rs a b A B : Rabs a <= A -> Rabs b <= B -> Rabs (a - b) <= A + B.
Proof. intros H1 H2. unfold Rminus. apply ra; [assumption|]. rewrite Rabs_Ropp. assumption. Qed.
Lemma r1 d : Rabs d <= u32 -> Rabs (1 + d) <= 1 + u32.
Proof. intros H. apply ra; [rewrite Rabs_R1; lra|assumption]. Qed.

(** One step.  [S]: exact sum so far, [X]: sum of the absolute values so far. *)
Lemma kahan_step x s c S X E : fin32 x -> fin32 s -> fin32 c ->
  Rabs S <= X -> Rabs (fval c) <= 3 * u32 * X -> Rabs (fval s - fval c - S) <= E -> E <= 3 * u32 * X -> X + Rabs (fval x) <= bpow radix2 125 ->
  let st := kahan x (s, c) in let X' := X + Rabs (fval x) in
  fin32 (fst st) /\ fin32 (snd st) /\ Rabs (fval (snd st)) <= 3 * u32 * X' /\
  Rabs (fval (fst st) - fval (snd st) - (S + fval x)) <= E + 2 * u32 * Rabs (fval x) + 13 * u32 * u32 * X'.
Proof.
  intros Fx Fs Fc HS Hc He HE HB st X'. unfold st, kahan. cbn [fst snd o_add o_sub F32ops].
  pose proof (Rabs_pos S) as P1. pose proof (Rabs_pos (fval x)) as P2. set (x0 := Rabs (fval x)) in *.
  assert (H125 : 4 * bpow radix2 125 = bpow radix2 127) by (change 4 with (bpow radix2 2); rewrite <- bpow_plus; reflexivity).
  assert (Hp : Rabs (fval x - fval c) <= x0 + 3 * u32 * X) by (apply rs; [apply Rle_refl|assumption]).
  destruct (f_sub x c Fx Fc) as (Fy & h & H1 & Ey). { eapply Rle_trans; [exact Hp|]. rewrite u32_val. lra. }
  set (y := f32_sub x c) in *. set (p := x0 + 3 * u32 * X) in *.
  assert (Hph := rm _ _ _ _ Hp H1).
  assert (Hy : Rabs (fval y) <= p * (1 + u32)) by (rewrite Ey; apply rm; [assumption|apply r1; assumption]).
  set (q := E + X + x0 + p * u32).
  assert (Hq : Rabs (fval s + fval y) <= q).
  { replace (fval s + fval y) with (fval s - fval c - S + S + fval x + (fval x - fval c) * h) by (rewrite Ey; ring).
    unfold q. repeat apply ra; try assumption. apply Rle_refl. }
  destruct (f_add s y Fs Fy) as (Ft & sg & H2 & Et). { eapply Rle_trans; [exact Hq|]. unfold q, p. rewrite u32_val in *. lra. }
  set (t := f32_add s y) in *.
  set (d := fval t - fval s - fval y). assert (Ed : d = (fval s + fval y) * sg) by (unfold d; rewrite Et; ring).
  assert (Hd : Rabs d <= q * u32) by (rewrite Ed; apply rm; assumption).
  set (r := p * (1 + u32) + q * u32).
  assert (Hr : Rabs (fval t - fval s) <= r) by (replace (fval t - fval s) with (fval y + d) by (unfold d; ring); apply ra; assumption).
  destruct (f_sub t s Ft Fs) as (Fw & g & H3 & Ew). { eapply Rle_trans; [exact Hr|]. unfold r, q, p. rewrite u32_val in *. lra. }
  set (w := f32_sub t s) in *.
  assert (Hrg := rm _ _ _ _ Hr H3).
  assert (Hwy : Rabs (fval w - fval y) <= q * u32 + r * u32).
  { replace (fval w - fval y) with (d + (fval t - fval s) * g) by (rewrite Ew; unfold d; ring). apply ra; assumption. }
  destruct (f_sub w y Fw Fy) as (Fc' & de & H4 & Ec). { eapply Rle_trans; [exact Hwy|]. unfold r, q, p. rewrite u32_val in *. lra. }
  set (c' := f32_sub w y) in *.
  split; [exact Ft|]. split; [exact Fc'|]. split.
  - rewrite Ec. eapply Rle_trans; [apply rm; [exact Hwy|apply r1; exact H4]|]. unfold X', r, q, p. rewrite u32_val in *. lra.
  - replace (fval t - fval c' - (S + fval x)) with (fval s - fval c - S + (fval x - fval c) * h - d * de - (fval t - fval s) * g * (1 + de)).
    + eapply Rle_trans; [apply rs; [apply rs; [apply ra; [exact He|exact Hph]|apply (rm _ _ _ _ Hd H4)]|apply (rm _ _ _ _ Hrg (r1 _ H4))]|].
      unfold X', r, q, p. rewrite u32_val in *. lra.
    + rewrite Ec, Ew. unfold d. assert (Hx : (fval x - fval c) * h = fval y - (fval x - fval c)) by (rewrite Ey; ring). rewrite Hx. ring.
Qed.

(** After [k] values with exact sum [S] and sum of absolute values [X]. *)
Record kinv (k : R) (st : f32 * f32) (S X : R) : Prop := {
  ki_s : fin32 (fst st); ki_c : fin32 (snd st); ki_S : Rabs S <= X;
  ki_corr : Rabs (fval (snd st)) <= 3 * u32 * X;
  ki_err : Rabs (fval (fst st) - fval (snd st) - S) <= 2 * u32 * X + 13 * k * u32 * u32 * X
}.
Lemma kinv_start : kinv 0 (o_zero, o_zero) 0 0.
Proof. split; cbn [fst snd]; try apply fin_zero; rewrite ?fval_zero, ?Rminus_0_r, ?Rabs_R0; lra. Qed.
Lemma kinv_step k st S X x : kinv k st S X -> 0 <= k -> 13 * k * u32 <= 1 -> fin32 x -> X + Rabs (fval x) <= bpow radix2 125 ->
  kinv (k + 1) (kahan x st) (S + fval x) (X + Rabs (fval x)).
Proof.
  intros [a1 a2 a3 a4 a5] Hk Hku Fx HB. destruct st as [s c]. cbn [fst snd] in *. pose proof (Rabs_pos S) as P1. pose proof (Rabs_pos (fval x)) as P2. pose proof u32_pos as U.
  assert (HX : 13 * k * u32 * u32 * X <= u32 * X).
  { replace (13 * k * u32 * u32 * X) with ((13 * k * u32) * (u32 * X)) by ring. assert (0 <= u32 * X) by (apply Rmult_le_pos; lra). nra. }
  destruct (kahan_step x s c S X (2 * u32 * X + 13 * k * u32 * u32 * X) Fx a1 a2 a3 a4 a5) as (b1 & b2 & b3 & b4); [lra|exact HB|].
  split; try assumption; [apply ra; [assumption|lra]|]. eapply Rle_trans; [exact b4|].
  assert (0 <= k * (u32 * u32) * Rabs (fval x)) by (apply Rmult_le_pos; [apply Rmult_le_pos; [lra|nra]|assumption]). nra.
Qed.
Lemma kinv_fold {A} (l : list A) (f : A -> f32) : forall k st S X, kinv k st S X -> 0 <= k -> 13 * (k + INR (List.length l)) * u32 <= 1 ->
  (forall i, In i l -> fin32 (f i)) -> X + Rsuml l (fun i => Rabs (fval (f i))) <= bpow radix2 125 ->
  kinv (k + INR (List.length l)) (fold_left (fun st i => kahan (f i) st) l st) (S + Rsuml l (fun i => fval (f i))) (X + Rsuml l (fun i => Rabs (fval (f i)))).
Proof.
  induction l as [|x l IH]; intros k st S X HI Hk Hku HF HB; cbn [fold_left List.length].
  - rewrite !Rsuml_nil, !Rplus_0_r. exact HI.
  - change (List.length (x :: l)) with (Datatypes.S (List.length l)) in *. rewrite S_INR, !Rsuml_cons in *. pose proof (pos_INR (List.length l)) as PI. pose proof u32_pos as U. pose proof (Rabs_pos (fval (f x))).
    assert (0 <= Rsuml l (fun i => Rabs (fval (f i)))) by (apply Rsuml_nonneg; intros; apply Rabs_pos).
    replace (k + (INR (List.length l) + 1)) with (k + 1 + INR (List.length l)) in * by ring. rewrite <- !Rplus_assoc in *. apply IH; try lra.
    + apply kinv_step; try assumption; try lra; [nra|apply HF; left; reflexivity].
    + intros i Hi. apply HF. right. assumption.
Qed.

(** ** Adding the sums of tiles *)
(** What is known of the sum of a tile. *)
Record tsum (st : f32 * f32) (S X : R) : Prop := {
  tu_s : fin32 (fst st); tu_c : fin32 (snd st); tu_S : Rabs S <= X;
  tu_corr : Rabs (fval (snd st)) <= 3 * u32 * X; tu_err : Rabs (fval (fst st) - fval (snd st) - S) <= 3 * u32 * X
}.
Lemma kinv_tsum k st S X : kinv k st S X -> 0 <= k -> 13 * k * u32 <= 1 -> tsum st S X.
Proof.
  intros [a1 a2 a3 a4 a5] Hk Hku. split; try assumption. eapply Rle_trans; [exact a5|]. pose proof (Rabs_pos S) as P1. pose proof u32_pos as U.
  replace (13 * k * u32 * u32 * X) with ((13 * k * u32) * (u32 * X)) by ring. assert (0 <= u32 * X) by (apply Rmult_le_pos; lra). nra.
Qed.
Lemma p124 : 8 * bpow radix2 124 = bpow radix2 127. Proof. change 8 with (bpow radix2 3); rewrite <- bpow_plus; reflexivity. Qed.
Lemma p124' : 4 * bpow radix2 124 = bpow radix2 126. Proof. change 4 with (bpow radix2 2); rewrite <- bpow_plus; reflexivity. Qed.
Lemma eta124 : eta32 <= bpow radix2 124. Proof. apply bpow_le. lia. Qed.
(** dst = alpha * sum *)
Lemma first_zero alpha st S X : fin32 alpha -> tsum st S X -> Rabs (fval alpha) * X <= bpow radix2 124 ->
  fin32 (f32_mul alpha (fst st)) /\ Rabs (fval (f32_mul alpha (fst st)) - fval alpha * S) <= 8 * u32 * (Rabs (fval alpha) * X) + eta32.
Proof.
  intros Fa [a1 a2 a3 a4 a5] HB. set (a := fval alpha) in *. set (M := Rabs a * X) in *. destruct st as [s c]. cbn [fst snd] in *.
  pose proof u32_pos as U. pose proof (Rabs_pos a) as Pa. pose proof (Rabs_pos S) as PS.
  assert (Hs : Rabs (fval s - S) <= 6 * u32 * X) by (replace (fval s - S) with (fval s - fval c - S + fval c) by ring; eapply Rle_trans; [apply ra; eassumption|lra]).
  assert (Hs' : Rabs (fval s) <= X + 6 * u32 * X) by (replace (fval s) with (S + (fval s - S)) by ring; apply ra; assumption).
  assert (Has : Rabs (a * fval s) <= M + 6 * u32 * M) by (eapply Rle_trans; [apply rm; [apply Rle_refl|exact Hs']|right; unfold M; ring]).
  assert (HasS : Rabs (a * (fval s - S)) <= 6 * u32 * M) by (eapply Rle_trans; [apply rm; [apply Rle_refl|exact Hs]|right; unfold M; ring]).
  assert (HM : 0 <= M) by (apply Rmult_le_pos; lra).
  destruct (f_mul alpha s Fa a1) as (K1 & d & e & D1 & D2 & D3). { fold a. eapply Rle_trans; [exact Has|]. rewrite <- p124'. rewrite u32_val in *. lra. }
  split; [exact K1|]. rewrite D3. fold a. replace (a * fval s * (1 + d) + e - a * S) with (a * (fval s - S) + a * fval s * d + e) by ring.
  eapply Rle_trans; [repeat apply ra; [exact HasS|apply (rm _ _ _ _ Has D1)|exact D2]|]. rewrite u32_val in *. lra.
Qed.
(** dst = (dst - alpha * c) + alpha * sum *)
Lemma add_tile alpha r st S X R0 : fin32 alpha -> fin32 r -> tsum st S X -> Rabs (fval alpha) * X <= bpow radix2 124 -> Rabs (fval r) <= R0 -> R0 <= 2 * bpow radix2 124 ->
  let r' := f32_add (f32_sub r (f32_mul alpha (snd st))) (f32_mul alpha (fst st)) in
  fin32 r' /\ Rabs (fval r' - (fval r + fval alpha * S)) <= (2 * u32 + u32 * u32) * R0 + 6 * u32 * (Rabs (fval alpha) * X) + 3 * eta32.
Proof.
  intros Fa Fr [a1 a2 a3 a4 a5] HB HR HR' r'. unfold r'. clear r'. set (a := fval alpha) in *. set (M := Rabs a * X) in *. destruct st as [s c]. cbn [fst snd] in *.
  pose proof u32_pos as U. pose proof eta32_pos as PE. pose proof (Rabs_pos a) as Pa. pose proof (Rabs_pos S) as PS. pose proof (Rabs_pos (fval r)) as PR. pose proof p124 as Q1. pose proof p124' as Q2. pose proof eta124 as Q3.
  assert (Hs : Rabs (fval s - S) <= 6 * u32 * X) by (replace (fval s - S) with (fval s - fval c - S + fval c) by ring; eapply Rle_trans; [apply ra; eassumption|lra]).
  assert (Hs' : Rabs (fval s) <= X + 6 * u32 * X) by (replace (fval s) with (S + (fval s - S)) by ring; apply ra; assumption).
  assert (Has : Rabs (a * fval s) <= M + 6 * u32 * M) by (eapply Rle_trans; [apply rm; [apply Rle_refl|exact Hs']|right; unfold M; ring]).
  assert (Hac : Rabs (a * fval c) <= 3 * u32 * M) by (eapply Rle_trans; [apply rm; [apply Rle_refl|exact a4]|right; unfold M; ring]).
  assert (He : Rabs (a * (fval s - fval c - S)) <= 3 * u32 * M) by (eapply Rle_trans; [apply rm; [apply Rle_refl|exact a5]|right; unfold M; ring]).
  assert (HM : 0 <= M) by (apply Rmult_le_pos; lra).
  destruct (f_mul alpha s Fa a1) as (K1 & d & e & D1 & D2 & D3). { fold a. eapply Rle_trans; [exact Has|]. rewrite u32_val in *. lra. }
  destruct (f_mul alpha c Fa a2) as (K2 & d' & e' & D1' & D2' & D3'). { fold a. eapply Rle_trans; [exact Hac|]. rewrite u32_val in *. lra. }
  fold a in D3, D3'. set (as_ := f32_mul alpha s) in *. set (ac := f32_mul alpha c) in *.
  assert (B1 : Rabs (fval as_) <= (M + 6 * u32 * M) * (1 + u32) + eta32) by (rewrite D3; apply ra; [apply rm; [exact Has|apply r1; exact D1]|exact D2]).
  assert (B2 : Rabs (fval ac) <= 3 * u32 * M * (1 + u32) + eta32) by (rewrite D3'; apply ra; [apply rm; [exact Hac|apply r1; exact D1']|exact D2']).
  set (Bc := 3 * u32 * M * (1 + u32) + eta32) in *. set (Bs := (M + 6 * u32 * M) * (1 + u32) + eta32) in *.
  assert (B3 : Rabs (fval r - fval ac) <= R0 + Bc) by (apply rs; assumption).
  destruct (f_sub r ac Fr K2) as (K3 & d3 & D5 & D6). { eapply Rle_trans; [exact B3|]. unfold Bc. rewrite u32_val in *. lra. }
  set (t1 := f32_sub r ac) in *.
  assert (B4 : Rabs (fval t1) <= (R0 + Bc) * (1 + u32)) by (rewrite D6; apply rm; [exact B3|apply r1; exact D5]).
  assert (B5 : Rabs (fval t1 + fval as_) <= (R0 + Bc) * (1 + u32) + Bs) by (apply ra; assumption).
  destruct (f_add t1 as_ K3 K1) as (K4 & d4 & D7 & D8). { eapply Rle_trans; [exact B5|]. unfold Bc, Bs. rewrite u32_val in *. lra. }
  split; [exact K4|]. rewrite D8.
  replace ((fval t1 + fval as_) * (1 + d4) - (fval r + a * S)) with
    (a * (fval s - fval c - S) + (a * fval s * d + e) - (a * fval c * d' + e') + (fval r - fval ac) * d3 + (fval t1 + fval as_) * d4) by (rewrite D6, D3, D3'; ring).
  assert (G1 : Rabs (a * fval s * d + e) <= (M + 6 * u32 * M) * u32 + eta32) by (apply ra; [apply rm; assumption|assumption]).
  assert (G2 : Rabs (a * fval c * d' + e') <= 3 * u32 * M * u32 + eta32) by (apply ra; [apply rm; assumption|assumption]).
  eapply Rle_trans; [apply ra; [apply ra; [apply rs; [apply ra; [exact He|exact G1]|exact G2]|apply (rm _ _ _ _ B3 D5)]|apply (rm _ _ _ _ B5 D7)]|].
  unfold Bc, Bs. rewrite u32_val in *. lra.
Qed.
