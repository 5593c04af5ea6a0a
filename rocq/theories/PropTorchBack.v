(** * C71: to_torch *)
From Coq Require Import String Reals.
From Verif Require Import Base Spec RSum AttnSpec AttMath GptSpec GptTorchSpec TorchMath Geometry Traits TraitsProofs Runtime Ops TensorSem Sequence XReals NdRuns NumpyIO PropNumpy Checkpoint PropCheckpoint GptTorch PropTorch.
Import ListNotations.
Local Close Scope R_scope.
Local Close Scope string_scope.
Local Open Scope list_scope.
Local Open Scope Z_scope.

Lemma same_shape_refl {X} (a b : narr X) : n_shape a = n_shape b -> same_shape a b = true.
Proof. intros E. unfold same_shape. destruct list_eq_dec; congruence. Qed.
Lemma narr_eta {X} (a : narr X) sh : n_shape a = sh -> a = mkN sh (n_at a).
Proof. destruct a. cbn. congruence. Qed.

Section Back.
Context {X : Type}.
Variables (e nh h : Z).
Hypothesis Hh : 0 < h.
Hypothesis Hnh : 0 < nh.
Hypothesis He : e = nh * h.
Lemma back_weight_ok (p v : narr X) m r : 0 <= m < 3 -> n_shape p = [e; 3 * e] -> n_shape v = [nh; h; e] ->
  exists p', back_weight e m (p, v :: r) = Ok (p', r) /\ n_shape p' = [e; 3 * e] /\
    (forall k y d, 0 <= k < e -> 0 <= y < nh -> 0 <= d < h -> n_at p' [k; m * e + (y * h + d)] = n_at v [y; d; k]) /\
    (forall k c, c < m * e \/ m * e + e <= c -> n_at p' [k; c] = n_at p [k; c]).
Proof.
  intros Hm Sp Sv. destruct (cut3 e nh h Hh Hnh He m Hm) as [C1 C2]. rewrite (narr_eta p _ Sp). unfold back_weight, next_value. cbn [bind].
  unfold set_cols, cols. cbn [n_shape n_at bind hd tl]. rewrite C1, C2. replace (m * e + e - m * e) with e by ring.
  cbn [transpose n_shape rev app]. rewrite reshape_ok by (rewrite Sv; cbn [prodZ]; nia). cbn [bind]. rewrite same_shape_refl by reflexivity.
  cbn [negb throw_if bind]. eexists. split; [reflexivity|]. cbn [n_shape n_at]. split; [reflexivity|]. split.
  - intros k y d Hk Hy Hd. assert (Hc : 0 <= y * h + d < e) by nia.
    rewrite (proj2 (Z.leb_le _ _)), (proj2 (Z.ltb_lt _ _)) by lia. cbn [andb]. unfold transpose. cbn [n_at rev app]. rewrite Sv.
    replace (m * e + (y * h + d) - m * e) with (y * h + d) by ring.
    replace (c_ravel [e; e] [y * h + d; k]) with (y * (h * e) + (d * e + k)) by (cbn [c_ravel prodZ]; ring).
    rewrite unravel3 by lia. reflexivity.
  - intros k c Hc. destruct (Z.leb_spec (m * e) c), (Z.ltb_spec c (m * e + e)); cbn [andb]; try reflexivity; lia.
Qed.
Lemma back_bias_ok (p v : narr X) m r : 0 <= m < 3 -> n_shape p = [3 * e] -> n_shape v = [h; nh] ->
  exists p', back_bias e m (p, v :: r) = Ok (p', r) /\ n_shape p' = [3 * e] /\
    (forall y d, 0 <= y < nh -> 0 <= d < h -> n_at p' [m * e + (y * h + d)] = n_at v [d; y]) /\
    (forall c, c < m * e \/ m * e + e <= c -> n_at p' [c] = n_at p [c]).
Proof.
  intros Hm Sp Sv. destruct (cut3 e nh h Hh Hnh He m Hm) as [C1 C2]. rewrite (narr_eta p _ Sp). unfold back_bias, next_value. cbn [bind].
  rewrite Sv. rewrite reshape_ok by (cbn [transpose n_shape]; rewrite Sv; cbn [rev app prodZ]; nia). cbn [bind].
  unfold set_rows, rows. cbn [n_shape n_at bind hd tl]. rewrite C1, C2. replace (m * e + e - m * e) with e by ring.
  rewrite same_shape_refl by (cbn [n_shape prodZ]; f_equal; rewrite He; ring).
  cbn [negb throw_if bind]. eexists. split; [reflexivity|]. cbn [n_shape n_at]. split; [reflexivity|]. split.
  - intros y d Hy Hd. assert (Hc : 0 <= y * h + d < e) by nia.
    rewrite (proj2 (Z.leb_le _ _)), (proj2 (Z.ltb_lt _ _)) by lia. cbn [andb transpose n_shape]. rewrite Sv. cbn [rev app].
    replace (c_ravel [prodZ [h; nh]] [m * e + (y * h + d) - m * e]) with (y * h + d) by (cbn [c_ravel prodZ]; ring).
    rewrite unravel2 by lia. reflexivity.
  - intros c Hc. destruct (Z.leb_spec (m * e) c), (Z.ltb_spec c (m * e + e)); cbn [andb]; try reflexivity; lia.
Qed.
Lemma back_weights (p v0 v1 v2 : narr X) r : n_shape p = [e; 3 * e] -> n_shape v0 = [nh; h; e] -> n_shape v1 = [nh; h; e] -> n_shape v2 = [nh; h; e] ->
  exists f, (st <- back_weight e 0 (p, v0 :: v1 :: v2 :: r) ;; st <- back_weight e 1 st ;; back_weight e 2 st) = Ok (mkN [e; 3 * e] f, r) /\
    forall m y d k, (m < 3)%nat -> 0 <= y < nh -> 0 <= d < h -> 0 <= k < e -> n_at (nth m [v0; v1; v2] v0) [y; d; k] = f [k; Z.of_nat m * e + (y * h + d)].
Proof.
  intros Sp S0 S1 S2.
  destruct (back_weight_ok p v0 0 (v1 :: v2 :: r) ltac:(lia) Sp S0) as (p0 & E0 & T0 & A0 & B0).
  destruct (back_weight_ok p0 v1 1 (v2 :: r) ltac:(lia) T0 S1) as (p1 & E1 & T1 & A1 & B1).
  destruct (back_weight_ok p1 v2 2 r ltac:(lia) T1 S2) as (p2 & E2 & T2 & A2 & B2).
  exists (n_at p2). rewrite E0. cbn [bind]. rewrite E1. cbn [bind]. rewrite E2, <- (narr_eta p2 _ T2). split; [reflexivity|].
  intros m y d k Hm Hy Hd Hk. assert (Hc : 0 <= y * h + d < e) by nia.
  destruct m as [|[|[|m]]]; [| | |lia]; cbn [nth].
  - change (Z.of_nat 0) with 0. rewrite B2, B1, A0 by (assumption || lia). reflexivity.
  - change (Z.of_nat 1) with 1. rewrite B2, A1 by (assumption || lia). reflexivity.
  - change (Z.of_nat 2) with 2. rewrite A2 by assumption. reflexivity.
Qed.
Lemma back_biases (p v0 v1 v2 : narr X) r : n_shape p = [3 * e] -> n_shape v0 = [h; nh] -> n_shape v1 = [h; nh] -> n_shape v2 = [h; nh] ->
  exists f, (st <- back_bias e 0 (p, v0 :: v1 :: v2 :: r) ;; st <- back_bias e 1 st ;; back_bias e 2 st) = Ok (mkN [3 * e] f, r) /\
    forall m y d, (m < 3)%nat -> 0 <= y < nh -> 0 <= d < h -> n_at (nth m [v0; v1; v2] v0) [d; y] = f [Z.of_nat m * e + (y * h + d)].
Proof.
  intros Sp S0 S1 S2.
  destruct (back_bias_ok p v0 0 (v1 :: v2 :: r) ltac:(lia) Sp S0) as (p0 & E0 & T0 & A0 & B0).
  destruct (back_bias_ok p0 v1 1 (v2 :: r) ltac:(lia) T0 S1) as (p1 & E1 & T1 & A1 & B1).
  destruct (back_bias_ok p1 v2 2 r ltac:(lia) T1 S2) as (p2 & E2 & T2 & A2 & B2).
  exists (n_at p2). rewrite E0. cbn [bind]. rewrite E1. cbn [bind]. rewrite E2, <- (narr_eta p2 _ T2). split; [reflexivity|].
  intros m y d Hm Hy Hd. assert (Hc : 0 <= y * h + d < e) by nia.
  destruct m as [|[|[|m]]]; [| | |lia]; cbn [nth].
  - change (Z.of_nat 0) with 0. rewrite B2, B1, A0 by (assumption || lia). reflexivity.
  - change (Z.of_nat 1) with 1. rewrite B2, A1 by (assumption || lia). reflexivity.
  - change (Z.of_nat 2) with 2. rewrite A2 by assumption. reflexivity.
Qed.
Lemma back_proj (v : narr X) : n_shape v = [e; nh; h] -> exists c, reshape [e; e] v = Ok c /\ n_shape c = [e; e] /\
  forall o y d, 0 <= o < e -> 0 <= y < nh -> 0 <= d < h -> n_at v [o; y; d] = n_at c [o; y * h + d].
Proof.
  intros Sv. rewrite reshape_ok by (rewrite Sv; cbn [prodZ]; nia). eexists. split; [reflexivity|]. split; [reflexivity|].
  intros o y d Ho Hy Hd. cbn [n_at]. rewrite Sv.
  replace (c_ravel [e; e] [o; y * h + d]) with (o * (nh * h) + (y * h + d)) by (cbn [c_ravel prodZ]; rewrite He; ring).
  rewrite unravel3 by lia. reflexivity.
Qed.
(** to_torch, with the values that are left *)
Fixpoint back_all (ps : list (named X)) (vs : list (narr X)) : res (list (named X) * list (narr X)) :=
  match ps with
  | [] => Ok ([], vs)
  | p :: ps => '(a, vs) <- back_param e p vs ;; '(r, vs) <- back_all ps vs ;; Ok ((fst p, a) :: r, vs)
  end.
Lemma to_torch_eq ps : forall vs, to_torch e ps vs = ('(r, _) <- back_all ps vs ;; Ok r).
Proof.
  induction ps as [|p ps IH]; intros vs; [reflexivity|]. cbn [to_torch back_all]. destruct (back_param e p vs) as [[a vs']| |]; [|reflexivity..].
  cbn [bind]. rewrite IH. destruct (back_all ps vs') as [[r w]| |]; reflexivity.
Qed.
Lemma back_all_app l1 : forall l2 vs, back_all (l1 ++ l2) vs = ('(a, vs) <- back_all l1 vs ;; '(b, vs) <- back_all l2 vs ;; Ok (a ++ b, vs)).
Proof.
  induction l1 as [|p l1 IH]; intros l2 vs; cbn [back_all app bind].
  - destruct (back_all l2 vs) as [[]| |]; reflexivity.
  - destruct (back_param e p vs) as [[a vs']| |]; cbn [bind]; [|reflexivity..]. rewrite IH.
    destruct (back_all l1 vs') as [[]| |]; cbn [bind]; [|reflexivity..]. destruct (back_all l2 l0) as [[]| |]; reflexivity.
Qed.
End Back.

Section Model.
Variables (e nh h inner V maxpos : Z).
Hypothesis Hh : 0 < h.
Hypothesis Hnh : 0 < nh.
Hypothesis He : e = nh * h.
Notation block_back num Q0 k vb r := (back_all e (torch_block_params e inner num Q0 k) (vb ++ r)).

Lemma block_to num (Q0 : nat -> arr) k vb r : map n_shape vb = block_shapes e nh h inner ->
  exists QL : nat -> arr, bconv e nh h (values vb) QL /\
    forall Q, (forall i, (i < 12)%nat -> Q (2 + 12 * k + i)%nat = QL i) -> block_back num Q0 k vb r = Ok (torch_block_params e inner num Q k, r).
Proof.
  intros ES. unfold block_shapes in ES.
  do 16 (destruct vb as [|? vb]; [discriminate ES|]). destruct vb; [|discriminate ES]. cbn [map] in ES. injection ES as s0 s1 s2 s3 s4 s5 s6 s7 s8 s9 s10 s11 s12 s13 s14 s15.
  destruct (back_weights e nh h Hh Hnh He (mkN [e; 3 * e] (Q0 (2 + 12 * k + 2)%nat)) n1 n2 n3 (n4 :: n5 :: n6 :: n7 :: n8 :: n9 :: n10 :: n11 :: n12 :: n13 :: n14 :: r) eq_refl s2 s3 s4) as (fw & Ew & Vw).
  destruct (back_biases e nh h Hh Hnh He (mkN [3 * e] (Q0 (2 + 12 * k + 3)%nat)) n4 n5 n6 (n7 :: n8 :: n9 :: n10 :: n11 :: n12 :: n13 :: n14 :: r) eq_refl s5 s6 s7) as (fb & Eb & Vb).
  destruct (back_proj e nh h Hh Hnh He n7 s8) as (c & Ec & Sc & Vc).
  exists (fun i => nth i [n_at (transpose n); n_at (transpose n0); fw; fb; n_at (transpose c); n_at n8; n_at (transpose n9); n_at (transpose n10); n_at (transpose n11); n_at (transpose n12); n_at (transpose n13); n_at (transpose n14)] (fun _ => 0%R)).
  split.
  - split; intros; unfold values; cbn [nth transpose n_at rev app]; try reflexivity.
    + rewrite <- Vw by assumption. destruct m as [|[|[|m]]]; [reflexivity..|lia].
    + rewrite <- Vb by assumption. destruct m as [|[|[|m]]]; [reflexivity..|lia].
    + apply Vc; assumption.
  - intros Q HQ. unfold torch_block_params. cbv zeta.
    pose proof (HQ 0%nat ltac:(lia)) as HQ0. rewrite Nat.add_0_r in HQ0. rewrite HQ0, !HQ by lia. cbn [nth].
    cbn [back_all back_param rev app String.eqb Ascii.eqb Bool.eqb andb bind next_value fst].
    rewrite Ew. cbn [bind]. rewrite Eb. cbn [bind next_value transpose n_shape rev app]. rewrite Ec. cbn [bind].
    cbn [bind next_value fst]. unfold transpose. cbn [n_at n_shape].
    rewrite s0, s1, s10, s11, s12, s13, s14, s15, Sc. cbn [rev app]. rewrite <- (narr_eta n8 _ s9). reflexivity.
Qed.

Lemma blocks_to num (Q0 : nat -> arr) L : forall vl r, map n_shape vl = List.concat (repeat (block_shapes e nh h inner) L) ->
  exists QB : nat -> arr, (forall k, (k < L)%nat -> bconv e nh h (fun i => values vl (16 * k + i)) (fun i => QB (12 * k + i)%nat)) /\
    forall Q, (forall j, (j < 12 * L)%nat -> Q (2 + j)%nat = QB j) ->
      back_all e (flat_map (torch_block_params e inner num Q0) (seq 0 L)) (vl ++ r) = Ok (flat_map (torch_block_params e inner num Q) (seq 0 L), r).
Proof.
  induction L as [|L IH]; intros vl r ES.
  { destruct vl; [|discriminate ES]. exists (fun _ _ => 0%R). split; [intros k Hk; lia|]. reflexivity. }
  cbn [repeat] in ES. rewrite repeat_cons, concat_app in ES. cbn [List.concat] in ES. rewrite app_nil_r in ES.
  apply map_eq_app in ES as (l1 & l2 & -> & E1 & E2).
  destruct (IH l1 (l2 ++ r) E1) as (QB & B1 & R1). destruct (block_to num Q0 L l2 r E2) as (QL & B2 & R2).
  assert (N1 : List.length l1 = (16 * L)%nat).
  { rewrite <- (map_length n_shape), E1. clear. induction L as [|L IH]; [reflexivity|]. cbn [repeat List.concat]. rewrite app_length, IH. cbn [block_shapes List.length]. lia. }
  assert (N2 : List.length l2 = 16%nat) by (rewrite <- (map_length n_shape), E2; reflexivity).
  exists (fun j => if (j <? 12 * L)%nat then QB j else QL (j - 12 * L)%nat). split.
  - intros k Hk. destruct (Nat.eq_dec k L) as [->|].
    + eapply bconv_ext; [| |exact B2].
      * intros i Hi. unfold values. rewrite app_nth2 by lia. replace (16 * L + i - List.length l1)%nat with i by lia. reflexivity.
      * intros i Hi. cbv beta. destruct (Nat.ltb_spec (12 * L + i) (12 * L)); [lia|]. f_equal. lia.
    + eapply bconv_ext; [| |apply (B1 k); lia].
      * intros i Hi. unfold values. rewrite app_nth1 by lia. reflexivity.
      * intros i Hi. cbv beta. destruct (Nat.ltb_spec (12 * k + i) (12 * L)); [reflexivity|lia].
  - intros Q HQ. rewrite seq_S, !flat_map_app, back_all_app, <- app_assoc, (R1 Q).
    + cbn [bind flat_map]. rewrite !app_nil_r, Nat.add_0_l, (R2 Q); [reflexivity|].
      intros i Hi. rewrite <- Nat.add_assoc, HQ by lia. destruct (Nat.ltb_spec (12 * L + i) (12 * L)); [lia|]. f_equal. lia.
    + intros j Hj. rewrite HQ by lia. destruct (Nat.ltb_spec j (12 * L)); [reflexivity|lia].
Qed.
Theorem to_torch_values num (Q0 : nat -> arr) L vs : map n_shape vs = param_shapes e nh h inner V maxpos L ->
  exists Q, to_torch e (named_parameters e inner V maxpos num Q0 L) vs = Ok (named_parameters e inner V maxpos num Q L) /\ mconv e nh h L (values vs) Q.
Proof.
  intros ES. unfold param_shapes in ES. destruct vs as [|a [|b vs]]; [discriminate ES..|]. cbn [map app] in ES. injection ES as Sa Sb ES.
  apply map_eq_app in ES as (vl & l3 & -> & ES & E3).
  destruct l3 as [|c [|d [|w [|]]]]; try discriminate E3. cbn [map] in E3. injection E3 as Sc Sd Sw.
  destruct (blocks_to num Q0 L vl [c; d; w] ES) as (QB & B & RB).
  assert (N : List.length vl = (16 * L)%nat).
  { rewrite <- (map_length n_shape), ES. clear. induction L as [|L IH]; [reflexivity|]. cbn [repeat List.concat]. rewrite app_length, IH. cbn [block_shapes List.length]. lia. }
  set (Q := fun j : nat => match j with O => n_at (transpose a) | 1%nat => n_at (transpose b)
    | S (S j) => if (j <? 12 * L)%nat then QB j else nth (j - 12 * L) [n_at (transpose c); n_at (transpose d); n_at w] (fun _ => 0%R) end).
  assert (Q1 : forall j, (j < 12 * L)%nat -> Q (2 + j)%nat = QB j).
  { intros j Hj. unfold Q. cbn [Nat.add]. destruct (Nat.ltb_spec j (12 * L)); [reflexivity|lia]. }
  assert (Q2 : forall i, Q (2 + 12 * L + i)%nat = nth i [n_at (transpose c); n_at (transpose d); n_at w] (fun _ => 0%R)).
  { intros i. unfold Q. cbn [Nat.add]. destruct (Nat.ltb_spec (12 * L + i) (12 * L)); [lia|]. f_equal. lia. }
  exists Q. split.
  - rewrite to_torch_eq. unfold named_parameters. cbv zeta.
    pose proof (fun l1 l2 vs => back_all_app (X := R) e l1 l2 vs) as BA. unfold GptTorch.named in *. rewrite BA.
    cbn [back_all back_param rev app String.eqb Ascii.eqb Bool.eqb andb bind next_value fst].
    rewrite BA, (RB Q Q1).
    cbn [back_all back_param rev app String.eqb Ascii.eqb Bool.eqb andb bind next_value fst].
    rewrite same_shape_refl by exact Sw. cbn [negb throw_if bind app fst].
    rewrite !Q2. pose proof (Q2 0%nat) as Q20. rewrite Nat.add_0_r in Q20. rewrite Q20. cbn [nth].
    unfold transpose at 1 2 3 4. rewrite Sa, Sb, Sc, Sd. cbn [rev app]. rewrite (narr_eta w _ Sw) at 1. reflexivity.
  - split; unfold values.
    + reflexivity.
    + reflexivity.
    + intros k Hk. eapply bconv_ext; [| |apply (B k Hk)].
      * intros i Hi. unfold values. f_equal. cbn [nth Nat.add]. apply app_nth1. lia.
      * intros i Hi. cbv beta. rewrite <- Nat.add_assoc. apply Q1. lia.
    + intros i. rewrite <- (Nat.add_0_r (2 + 12 * L)), Q2. cbn [nth Nat.add]. rewrite app_nth2 by lia. replace (16 * L - List.length vl)%nat with 0%nat by lia. reflexivity.
    + intros i. rewrite Q2. cbn [nth Nat.add]. rewrite app_nth2 by lia. replace (16 * L + 1 - List.length vl)%nat with 1%nat by lia. reflexivity.
    + intros v k. rewrite Q2. cbn [nth Nat.add]. rewrite app_nth2 by lia. replace (16 * L + 2 - List.length vl)%nat with 2%nat by lia. reflexivity.
Qed.

(** ** The two directions are inverse to each other *)
(** same name, same shape, same elements *)
Definition agree (p p' : named R) : Prop := fst p = fst p' /\ n_shape (snd p) = n_shape (snd p') /\
  forall idx, inb (n_shape (snd p)) idx -> n_at (snd p) idx = n_at (snd p') idx.
Lemma heads_split m c : 0 <= m < 3 -> m * e <= c < m * e + e -> exists y d, 0 <= y < nh /\ 0 <= d < h /\ c = m * e + (y * h + d).
Proof.
  intros Hm Hc. exists ((c - m * e) / h), ((c - m * e) mod h). pose proof (Z.mod_pos_bound (c - m * e) h Hh).
  pose proof (Z.div_mod (c - m * e) h ltac:(lia)). repeat split; try lia; [apply Z.div_pos; lia|]. apply Z.div_lt_upper_bound; nia.
Qed.
Lemma third c : 0 <= c < 3 * e -> exists m, (m < 3)%nat /\ Z.of_nat m * e <= c < Z.of_nat m * e + e.
Proof.
  intros Hc. destruct (Z.lt_ge_cases c e); [exists 0%nat; lia|]. destruct (Z.lt_ge_cases c (2 * e)); [exists 1%nat; lia|]. exists 2%nat. lia.
Qed.
Ltac ag := split; [reflexivity|]; split; [reflexivity|]; cbn [snd n_shape n_at]; intros idx Hi.
Lemma block_agree num k (P Q Q' : nat -> arr) : bconv e nh h P (fun i => Q (2 + 12 * k + i)%nat) -> bconv e nh h P (fun i => Q' (2 + 12 * k + i)%nat) ->
  Forall2 agree (torch_block_params e inner num Q k) (torch_block_params e inner num Q' k).
Proof.
  intros [a1 a2 a3 a4 a5 a6 a7 a8 a9 a10 a11 a12] [b1 b2 b3 b4 b5 b6 b7 b8 b9 b10 b11 b12]. rewrite Nat.add_0_r in a1, b1.
  unfold torch_block_params. cbv zeta. repeat apply Forall2_cons; try apply Forall2_nil; ag.
  - apply inb1_inv in Hi as (i & -> & Hi). congruence.
  - apply inb1_inv in Hi as (i & -> & Hi). congruence.
  - apply inb2_inv in Hi as (i & c & -> & Hi & Hc). destruct (third c Hc) as (m & Hm & Hc'). destruct (heads_split (Z.of_nat m) c ltac:(lia) Hc') as (y & d & Hy & Hd & ->).
    rewrite <- a3, <- b3 by assumption. reflexivity.
  - apply inb1_inv in Hi as (c & -> & Hc). destruct (third c Hc) as (m & Hm & Hc'). destruct (heads_split (Z.of_nat m) c ltac:(lia) Hc') as (y & d & Hy & Hd & ->).
    rewrite <- a4, <- b4 by assumption. reflexivity.
  - apply inb2_inv in Hi as (c & o & -> & Hc & Ho). destruct (heads_split 0 c ltac:(lia) ltac:(lia)) as (y & d & Hy & Hd & ->). rewrite Z.mul_0_l, Z.add_0_l.
    rewrite <- a5, <- b5 by assumption. reflexivity.
  - apply inb1_inv in Hi as (i & -> & Hi). congruence.
  - apply inb1_inv in Hi as (i & -> & Hi). congruence.
  - apply inb1_inv in Hi as (i & -> & Hi). congruence.
  - apply inb2_inv in Hi as (i & j & -> & Hi & Hj). congruence.
  - apply inb1_inv in Hi as (i & -> & Hi). congruence.
  - apply inb2_inv in Hi as (i & j & -> & Hi & Hj). congruence.
  - apply inb1_inv in Hi as (i & -> & Hi). congruence.
Qed.
Lemma mconv_agree num L (P Q Q' : nat -> arr) : mconv e nh h L P Q -> mconv e nh h L P Q' ->
  Forall2 agree (named_parameters e inner V maxpos num Q L) (named_parameters e inner V maxpos num Q' L).
Proof.
  intros [a1 a2 a3 a4 a5 a6] [b1 b2 b3 b4 b5 b6]. unfold named_parameters. cbv zeta. apply Forall2_app; [|apply Forall2_app].
  - repeat apply Forall2_cons; try apply Forall2_nil; ag; apply inb2_inv in Hi as (i & j & -> & Hi & Hj); congruence.
  - assert (G : forall l, (forall k, In k l -> (k < L)%nat) -> Forall2 agree (flat_map (torch_block_params e inner num Q) l) (flat_map (torch_block_params e inner num Q') l)).
    { induction l as [|k l IH]; intros Hl; [constructor|]. cbn [flat_map]. apply Forall2_app; [|apply IH; intros; apply Hl; right; assumption].
      apply (block_agree num k _ _ _ (a3 k (Hl k (or_introl eq_refl))) (b3 k (Hl k (or_introl eq_refl)))). }
    apply G. intros k Hk. apply in_seq in Hk. lia.
  - repeat apply Forall2_cons; try apply Forall2_nil; ag.
    + apply inb1_inv in Hi as (i & -> & Hi). congruence.
    + apply inb1_inv in Hi as (i & -> & Hi). congruence.
    + apply inb2_inv in Hi as (i & j & -> & Hi & Hj). congruence.
Qed.
(** Torch parameters that go into NNTile's arrays come back as they were, whatever the torch model
    held in between. *)
Theorem C71_round_trip num (Q Q0 : nat -> list Z -> R) L :
  let torch Q := named_parameters e inner V maxpos num Q L in
  exists l ps, torch_arrays e nh (torch Q) = Ok l /\ to_torch e (torch Q0) l = Ok ps /\ Forall2 agree ps (torch Q).
Proof.
  intros torch. destruct (from_torch_arrays e nh h inner V maxpos Hh Hnh He num Q L) as (l & E & S & M).
  destruct (to_torch_values num Q0 L l S) as (Q' & E' & M'). exists l, (torch Q'). split; [exact E|]. split; [exact E'|]. eapply mconv_agree; eassumption.
Qed.
Lemma read_saves (q : nat -> slot) ts : read_parameters (T := XR) q ts = saves (fun x => x) (fun x => x) FP32 q ts.
Proof.
  revert q. induction ts as [|t ts IH]; intros q; [reflexivity|]. cbn [read_parameters saves]. unfold save1. cbn [half_of].
  rewrite then_assoc, IH. f_equal. unfold then_. cbn [bind app]. destruct (saves _ _ _ _ _); reflexivity.
Qed.
(** Writing NNTile's parameters into torch's GPT2: the function torch's model then has is NNTile's *)
Theorem C71_to_torch num (P Q0 : nat -> list Z -> R) L ts q (s : store XR) :
  map t_shape ts = param_shapes e nh h inner V maxpos L -> saveable s ts q ->
  (forall j t idx, nth_error ts j = Some t -> inb (t_shape t) idx -> elem s t idx = Fin (P j idx)) ->
  let arrays := map (fun '(j, t) => mkN (t_shape t) (P j)) (combine (seq 0 (List.length ts)) ts) in
  runs_nd (read_parameters q ts) s (fun s' => holds_arrays s' (fun j => sl_mem (q j)) arrays) /\
  exists Q, to_torch e (named_parameters e inner V maxpos num Q0 L) arrays = Ok (named_parameters e inner V maxpos num Q L) /\
    forall n eps act tokens positions v i t,
      torch_logits e h n inner eps act tokens positions Q L v i t = logits e nh h n inner eps act tokens positions P L v i t.
Proof.
  intros EP HS HP arrays.
  assert (AN : forall j, nth_error arrays j = option_map (fun t => mkN (t_shape t) (P j)) (nth_error ts j)).
  { intros j. unfold arrays.
    assert (G : forall k ts j, nth_error (map (fun '(j, t) => mkN (t_shape t) (P j)) (combine (seq k (List.length ts)) ts)) j = option_map (fun t => mkN (t_shape t) (P (k + j)%nat)) (nth_error ts j)).
    { clear. intros k ts. revert k. induction ts as [|t ts IH]; intros k j; [destruct j; reflexivity|]. cbn [List.length seq combine map].
      destruct j; cbn [nth_error option_map]; [rewrite Nat.add_0_r; reflexivity|]. rewrite IH. replace (S k + j)%nat with (k + S j)%nat by lia. reflexivity. }
    exact (G 0%nat ts j). }
  split.
  - rewrite read_saves. eapply nd_weaken; [apply saves_runs; exact HS|]. intros s' _ [H1 _] j a idx Ha Hi. rewrite AN in Ha.
    destruct (nth_error ts j) as [t|] eqn:Et; [|discriminate]. injection Ha as <-. cbn [n_shape n_at] in *.
    change {| a_shape := t_shape t; a_mem := sl_mem (q j) |} with (zeros_like t (q j)). rewrite (H1 j t idx Et Hi). cbn [rounded]. apply HP; assumption.
  - assert (ES : map n_shape arrays = param_shapes e nh h inner V maxpos L).
    { rewrite <- EP. unfold arrays. generalize 0%nat as k. clear. induction ts as [|t ts IH]; intros k; [reflexivity|]. cbn [List.length seq combine map n_shape]. f_equal. apply IH. }
    destruct (to_torch_values num Q0 L arrays ES) as (Q & E & M). exists Q. split; [exact E|]. intros n eps act tokens positions v i t'. symmetry.
    assert (PV : forall j, (j < 5 + 16 * L)%nat -> values arrays j = P j).
    { intros j Hj. unfold values. destruct (nth_error ts j) as [t|] eqn:Et.
      - assert (Ea := AN j). rewrite Et in Ea. cbn [option_map] in Ea. rewrite (nth_error_nth _ _ _ Ea). reflexivity.
      - exfalso. apply nth_error_None in Et. rewrite <- (map_length t_shape), EP in Et. unfold param_shapes in Et. rewrite !app_length in Et.
        assert (List.length (List.concat (repeat (block_shapes e nh h inner) L)) = (16 * L)%nat).
        { clear. induction L as [|L IH]; [reflexivity|]. cbn [repeat List.concat]. rewrite app_length, IH. cbn [block_shapes List.length]. lia. }
        cbn [List.length] in Et. lia. }
    apply mconv_logits; try assumption. destruct M as [m1 m2 m3 m4 m5 m6]. split.
    + intros. rewrite <- PV by lia. apply m1.
    + intros. rewrite <- PV by lia. apply m2.
    + intros k Hk. eapply bconv_ext; [|intros; reflexivity|apply (m3 k Hk)]. intros i0 Hi0. cbv beta. rewrite PV by lia. reflexivity.
    + intros. rewrite <- PV by lia. apply m4.
    + intros. rewrite <- PV by lia. apply m5.
    + intros. rewrite <- PV by lia. apply m6.
Qed.
End Model.
