(** * C72: parameters of torch's MLP-Mixer loaded by from_torch and written back by to_torch *)
From Coq Require Import String Reals Lra.
From Verif Require Import Base Spec Geometry Traits TraitsProofs Runtime Ops RealOps TensorSem ElemGeneric Concrete Axis SliceGeo Sequence XReals NdRuns AnyRuns RSum AttnSpec MatOps CrossEntropy XTriples HasRuns TapeMath Tape PyLayers PyLinear PySimple AttMath PyModels BuildEnv GptBuild BuildModel GptSpec GptModel PropGpt GptExamples NumpyIO PropNumpy Checkpoint PropCheckpoint GptTorch PropTorch PropTorchBack PropTorchGpt PyMixer MixerRuns MixSpec MixerSeg PropMixer PyMixModels MixBuild MixModel PropMixModel MixTorchSpec MixTorch PropDeriv.
Import ListNotations.
Local Close Scope string_scope.
Local Close Scope R_scope.
Local Open Scope list_scope.
Local Open Scope Z_scope.

(** ** Lists *)
Lemma concat_repeat_len {X} (l : list X) L : List.length (List.concat (repeat l L)) = (List.length l * L)%nat.
Proof. induction L; cbn [repeat List.concat]; [cbn [List.length]; lia|]. rewrite app_length, IHL. lia. Qed.
Lemma concat_repeat_nth {X} (l : list X) L k i : (k < L)%nat -> (i < List.length l)%nat ->
  nth_error (List.concat (repeat l L)) (List.length l * k + i) = nth_error l i.
Proof.
  revert k. induction L as [|L IH]; intros k Hk Hi; [lia|]. cbn [repeat List.concat]. destruct k as [|k].
  - rewrite Nat.mul_0_r, Nat.add_0_l. apply nth_error_app1. exact Hi.
  - rewrite nth_error_app2 by lia. rewrite <- (IH k) by lia. f_equal. lia.
Qed.
(** the shapes of a model, number by number *)
Lemma shapes_nth {X} (f l : X) (b : list X) L : List.length b = 8%nat ->
  let shs := [f] ++ List.concat (repeat b L) ++ [l] in
  List.length shs = (2 + 8 * L)%nat /\ nth_error shs 0 = Some f /\
  (forall k i, (k < L)%nat -> (i < 8)%nat -> nth_error shs (1 + 8 * k + i) = nth_error b i) /\ nth_error shs (1 + 8 * L) = Some l.
Proof.
  intros H shs. unfold shs. cbn [app]. split; [|split; [|split]].
  - cbn [List.length]. rewrite app_length, concat_repeat_len, H. cbn [List.length]. lia.
  - reflexivity.
  - intros k i Hk Hi. cbn [Nat.add nth_error]. rewrite nth_error_app1 by (rewrite concat_repeat_len, H; lia). rewrite <- H. apply concat_repeat_nth; lia.
  - cbn [Nat.add nth_error]. rewrite nth_error_app2 by (rewrite concat_repeat_len, H; lia). rewrite concat_repeat_len, H, Nat.sub_diag. reflexivity.
Qed.

Section Arrays.
Context {X : Type}.
Lemma parameters_len shs (W : nat -> list Z -> X) : List.length (parameters_of shs W) = List.length shs.
Proof. unfold parameters_of. rewrite map_length, combine_length, seq_length. lia. Qed.
Lemma parameters_nth shs (W : nat -> list Z -> X) j : nth_error (parameters_of shs W) j = option_map (fun sh => mkN sh (W j)) (nth_error shs j).
Proof.
  unfold parameters_of.
  assert (G : forall i, nth_error (map (fun '(j, sh) => mkN sh (W j)) (combine (seq i (List.length shs)) shs)) j = option_map (fun sh => mkN sh (W (i + j)%nat)) (nth_error shs j)).
  { revert j. induction shs as [|sh shs IH]; intros j i; [destruct j; reflexivity|]. cbn [List.length seq combine map]. destruct j; cbn [nth_error option_map]; [rewrite Nat.add_0_r; reflexivity|].
    rewrite IH. replace (Datatypes.S i + j)%nat with (i + Datatypes.S j)%nat by lia. reflexivity. }
  exact (G O).
Qed.
Lemma parameters_shapes shs (W : nat -> list Z -> X) : map n_shape (parameters_of shs W) = shs.
Proof.
  unfold parameters_of. rewrite map_map. generalize O as i.
  induction shs as [|sh shs IH]; intros i; [reflexivity|]. cbn [List.length seq combine map n_shape]. f_equal. apply IH.
Qed.
(** what mixer_array and mixer_back make *)
Definition turned (sh : list Z) (a : narr X) : narr X := if hd 0 sh =? hd 0 (n_shape a) then a else transpose a.
Lemma mixer_arrays_ok shs : forall ps : list (narr X), List.length shs = List.length ps -> Forall (fun sh => sh <> []) shs -> Forall (fun sh => sh <> []) (map n_shape ps) ->
  mixer_arrays shs ps = Ok (map (fun '(sh, a) => turned sh a) (combine shs ps)).
Proof.
  induction shs as [|sh shs IH]; intros [|a ps] HL H1 H2; try discriminate HL; [reflexivity|].
  inversion H1; inversion H2; subst. cbn [mixer_arrays combine map]. cbn [List.length] in HL.
  unfold mixer_array, turned. destruct sh as [|s sh]; [congruence|]. destruct (n_shape a) as [|r rs] eqn:Er; [congruence|]. cbn [hd bind].
  rewrite IH by (assumption || lia). cbn [bind]. destruct (s =? r); reflexivity.
Qed.
Lemma mixer_to_torch_ok vs : forall ps : list (narr X), List.length vs = List.length ps -> Forall (fun sh => sh <> []) (map n_shape vs) -> Forall (fun sh => sh <> []) (map n_shape ps) ->
  (forall j v a, nth_error vs j = Some v -> nth_error ps j = Some a -> n_shape (turned (n_shape a) v) = n_shape a) ->
  mixer_to_torch ps vs = Ok (map (fun '(a, v) => turned (n_shape a) v) (combine ps vs)).
Proof.
  induction vs as [|v vs IH]; intros [|a ps] HL H1 H2 HS; try discriminate HL; [reflexivity|].
  inversion H1; inversion H2; subst. cbn [mixer_to_torch combine map]. cbn [List.length] in HL.
  assert (E : mixer_back v a = Ok (turned (n_shape a) v)).
  { specialize (HS O v a eq_refl eq_refl). unfold mixer_back. unfold turned in *. destruct (n_shape v) as [|s sh] eqn:Ev; [congruence|]. destruct (n_shape a) as [|r rs] eqn:Er; [congruence|]. cbn [hd] in *.
    rewrite (Z.eqb_sym s r). destruct (r =? s); cbn [negb]; rewrite same_shape_refl by (rewrite Er; exact HS); reflexivity. }
  rewrite E. cbn [bind]. rewrite IH; [reflexivity|lia|assumption|assumption|]. intros j. exact (HS (Datatypes.S j)).
Qed.
End Arrays.

(** ** The conversion of a whole model *)
Section Model.
Variables (C E Q V : Z) (L : nat).
Hypothesis HE : 0 < E.
Notation tsh := (torch_mixer_shapes C E Q V L).
Notation nsh := (mixer_shapes C E Q V L).
Lemma tsh_nth : List.length tsh = (2 + 8 * L)%nat /\ nth_error tsh 0 = Some [E; Q] /\
  (forall k i, (k < L)%nat -> (i < 8)%nat -> nth_error tsh (1 + 8 * k + i) = nth_error [[E]; [E]; [4 * C; C]; [C; 4 * C]; [E]; [E]; [4 * E; E]; [E; 4 * E]] i) /\ nth_error tsh (1 + 8 * L) = Some [V; E].
Proof. apply shapes_nth. reflexivity. Qed.
Lemma nsh_nth : List.length nsh = (2 + 8 * L)%nat /\ nth_error nsh 0 = Some [Q; E] /\
  (forall k i, (k < L)%nat -> (i < 8)%nat -> nth_error nsh (1 + 8 * k + i) = nth_error [[E]; [E]; [4 * C; C]; [C; 4 * C]; [E]; [E]; [E; 4 * E]; [4 * E; E]] i) /\ nth_error nsh (1 + 8 * L) = Some [V; E].
Proof. apply shapes_nth. reflexivity. Qed.
(** every number is one of these *)
Lemma param_cases j : (j < 2 + 8 * L)%nat -> j = O \/ (exists k i, (k < L)%nat /\ (i < 8)%nat /\ j = (1 + 8 * k + i)%nat) \/ j = (1 + 8 * L)%nat.
Proof.
  intros Hj. destruct j as [|j]; [left; reflexivity|right]. destruct (Nat.lt_ge_cases j (8 * L)); [left|right; lia].
  exists (j / 8)%nat, (j mod 8)%nat. pose proof (Nat.div_mod j 8 ltac:(lia)). pose proof (Nat.mod_upper_bound j 8 ltac:(lia)). split; [|lia]. apply Nat.div_lt_upper_bound; lia.
Qed.
Lemma ne_shapes shs : (forall j sh, nth_error shs j = Some sh -> sh <> ([] : list Z)) -> Forall (fun sh => sh <> []) shs.
Proof. intros H. apply Forall_forall. intros sh Hs. apply In_nth_error in Hs as (j & Hj). eauto. Qed.
(** the two shapes of a parameter: equal, or a matrix and its transpose *)
Lemma pair_shapes j u v : nth_error nsh j = Some u -> nth_error tsh j = Some v -> u <> [] /\ v <> [] /\
  ((hd 0 u =? hd 0 v) = true /\ u = v \/ (hd 0 u =? hd 0 v) = false /\ rev u = v).
Proof.
  destruct nsh_nth as (Nl & N0 & Nb & Nh), tsh_nth as (Tl & T0 & Tb & Th). intros Hu Hv.
  assert (Hj : (j < 2 + 8 * L)%nat) by (rewrite <- Nl; apply nth_error_Some; congruence).
  destruct (param_cases j Hj) as [->|[(k & i & Hk & Hi & ->)| -> ]].
  - rewrite N0 in Hu. rewrite T0 in Hv. injection Hu as <-. injection Hv as <-. cbn [hd rev app].
    split; [discriminate|]. split; [discriminate|]. destruct (Z.eqb_spec Q E); [left; subst; tauto|right; tauto].
  - rewrite Nb in Hu by assumption. rewrite Tb in Hv by assumption.
    assert (H4 : (E =? 4 * E) = false /\ (4 * E =? E) = false) by (split; apply Z.eqb_neq; lia).
    do 8 (destruct i as [|i]; [injection Hu as <-; injection Hv as <-; cbn [hd rev app]; (split; [discriminate|]); (split; [discriminate|]);
      first [left; split; [apply Z.eqb_refl|reflexivity]|right; split; [apply H4|reflexivity]]|]). lia.
  - rewrite Nh in Hu. rewrite Th in Hv. injection Hu as <-. injection Hv as <-. split; [discriminate|]. split; [discriminate|]. left. split; [apply Z.eqb_refl|reflexivity].
Qed.
Lemma nsh_ne : Forall (fun sh => sh <> []) nsh.
Proof.
  apply ne_shapes. intros j u Hu. destruct (nth_error tsh j) as [v|] eqn:Hv; [apply (pair_shapes j u v Hu Hv)|].
  exfalso. apply nth_error_None in Hv. rewrite (proj1 tsh_nth) in Hv. assert (j < List.length nsh)%nat by (apply nth_error_Some; congruence). rewrite (proj1 nsh_nth) in H. lia.
Qed.
Lemma tsh_ne : Forall (fun sh => sh <> []) tsh.
Proof.
  apply ne_shapes. intros j u Hu. destruct (nth_error nsh j) as [v|] eqn:Hv; [apply (pair_shapes j v u Hv Hu)|].
  exfalso. apply nth_error_None in Hv. rewrite (proj1 nsh_nth) in Hv. assert (j < List.length tsh)%nat by (apply nth_error_Some; congruence). rewrite (proj1 tsh_nth) in H. lia.
Qed.
Lemma pair_ex j u : nth_error nsh j = Some u -> exists v, nth_error tsh j = Some v.
Proof.
  intros Hu. destruct (nth_error tsh j) as [v|] eqn:Hv; [eauto|]. exfalso. apply nth_error_None in Hv. rewrite (proj1 tsh_nth) in Hv.
  assert (j < List.length nsh)%nat by (apply nth_error_Some; congruence). rewrite (proj1 nsh_nth) in H. lia.
Qed.

(** the same function: entry [j], [i] of the second matrix is entry [i], [j] of the first *)
Record xconv (P W : nat -> list Z -> R) : Prop := {
  xc_0 : forall q p, P O [q; p] = W O [p; q];
  xc_b : forall k, (k < L)%nat -> let n := fun i => (1 + 8 * k + i)%nat in
    (forall p, P (n 0%nat) [p] = W (n 0%nat) [p] /\ P (n 1%nat) [p] = W (n 1%nat) [p] /\ P (n 4%nat) [p] = W (n 4%nat) [p] /\ P (n 5%nat) [p] = W (n 5%nat) [p]) /\
    (forall i j, P (n 2%nat) [i; j] = W (n 2%nat) [i; j] /\ P (n 3%nat) [i; j] = W (n 3%nat) [i; j] /\ P (n 6%nat) [i; j] = W (n 6%nat) [j; i] /\ P (n 7%nat) [i; j] = W (n 7%nat) [j; i]);
  xc_h : forall v p, P (1 + 8 * L)%nat [v; p] = W (1 + 8 * L)%nat [v; p]
}.
(** mixer_arrays: shapes and values *)
Lemma mixer_arrays_model (W : nat -> list Z -> R) : exists l, mixer_arrays nsh (parameters_of tsh W) = Ok l /\ map n_shape l = nsh /\
  (forall j u v, nth_error nsh j = Some u -> nth_error tsh j = Some v -> forall idx, values l j idx = if hd 0 u =? hd 0 v then W j idx else W j (rev idx)).
Proof.
  eexists. split; [apply mixer_arrays_ok; [rewrite parameters_len, (proj1 nsh_nth), (proj1 tsh_nth); reflexivity|apply nsh_ne|rewrite parameters_shapes; apply tsh_ne]|].
  set (l := map (fun '(sh, a) => turned sh a) (combine nsh (parameters_of tsh W))).
  assert (NL : forall j u v, nth_error nsh j = Some u -> nth_error tsh j = Some v -> nth_error l j = Some (turned u (mkN v (W j)))).
  { intros j u v Hu Hv. unfold l. rewrite nth_error_map.
    assert (E0 : nth_error (combine nsh (parameters_of tsh W)) j = Some (u, mkN v (W j))).
    { assert (Hw : nth_error (parameters_of tsh W) j = Some (mkN v (W j))) by (rewrite parameters_nth, Hv; reflexivity).
      revert Hu Hw. generalize (mkN v (W j)) as w. generalize (parameters_of tsh W) as b. generalize nsh as a. clear. intros a b w. revert a b. induction j as [|j IH]; intros [|x a] [|y b] Hu Hw; try discriminate.
      - cbn in *. congruence. - cbn [nth_error combine] in *. apply IH; assumption. }
    rewrite E0. reflexivity. }
  split.
  - assert (EL : List.length l = (2 + 8 * L)%nat) by (unfold l; rewrite map_length, combine_length, parameters_len, (proj1 nsh_nth), (proj1 tsh_nth); lia).
    apply (nth_ext _ _ [] []); [rewrite map_length, EL, (proj1 nsh_nth); reflexivity|]. intros j Hj. rewrite map_length, EL in Hj.
    destruct (nth_error nsh j) as [u|] eqn:Hu; [|apply nth_error_None in Hu; rewrite (proj1 nsh_nth) in Hu; lia].
    destruct (pair_ex j u Hu) as (v & Hv). rewrite (nth_error_nth _ _ _ Hu).
    rewrite (nth_error_nth _ _ _ (map_nth_error n_shape _ _ (NL j u v Hu Hv))).
    unfold turned. cbn [n_shape]. destruct (pair_shapes j u v Hu Hv) as (_ & _ & [[-> H]|[-> H]]); [symmetry; exact H|]. cbn [transpose n_shape]. rewrite <- H. apply rev_involutive.
  - intros j u v Hu Hv idx. unfold values. rewrite (nth_error_nth _ _ _ (NL j u v Hu Hv)). unfold turned. cbn [n_shape]. destruct (hd 0 u =? hd 0 v); reflexivity.
Qed.
Lemma values_xconv (P W : nat -> list Z -> R) : Q <> E ->
  (forall j u v, nth_error nsh j = Some u -> nth_error tsh j = Some v -> forall idx, P j idx = if hd 0 u =? hd 0 v then W j idx else W j (rev idx)) ->
  xconv P W.
Proof.
  intros HQ HV. destruct nsh_nth as (Nl & N0 & Nb & Nh), tsh_nth as (Tl & T0 & Tb & Th).
  assert (H4 : (E =? 4 * E) = false /\ (4 * E =? E) = false) by (split; apply Z.eqb_neq; lia). destruct H4 as [H4 H4'].
  split.
  - intros q p. rewrite (HV _ _ _ N0 T0). cbn [hd]. rewrite (proj2 (Z.eqb_neq Q E) HQ). reflexivity.
  - intros k Hk n. unfold n.
    assert (HB : forall i u v, (i < 8)%nat -> nth_error [[E]; [E]; [4 * C; C]; [C; 4 * C]; [E]; [E]; [E; 4 * E]; [4 * E; E]] i = Some u ->
      nth_error [[E]; [E]; [4 * C; C]; [C; 4 * C]; [E]; [E]; [4 * E; E]; [E; 4 * E]] i = Some v -> forall idx, P (1 + 8 * k + i)%nat idx = if hd 0 u =? hd 0 v then W (1 + 8 * k + i)%nat idx else W (1 + 8 * k + i)%nat (rev idx)).
    { intros i u v Hi Hu Hv idx. apply HV; [rewrite Nb by assumption; exact Hu|rewrite Tb by assumption; exact Hv]. }
    split.
    + intros p. rewrite (HB 0%nat _ _ ltac:(lia) eq_refl eq_refl), (HB 1%nat _ _ ltac:(lia) eq_refl eq_refl), (HB 4%nat _ _ ltac:(lia) eq_refl eq_refl), (HB 5%nat _ _ ltac:(lia) eq_refl eq_refl).
      cbn [hd]. rewrite !Z.eqb_refl. tauto.
    + intros i j. rewrite (HB 2%nat _ _ ltac:(lia) eq_refl eq_refl), (HB 3%nat _ _ ltac:(lia) eq_refl eq_refl), (HB 6%nat _ _ ltac:(lia) eq_refl eq_refl), (HB 7%nat _ _ ltac:(lia) eq_refl eq_refl).
      cbn [hd]. rewrite !Z.eqb_refl, H4, H4'. cbn [rev app]. tauto.
  - intros v p. rewrite (HV _ _ _ Nh Th). cbn [hd]. rewrite Z.eqb_refl. reflexivity.
Qed.

(** ** The functions *)
Section Fun.
Variables (eps : R) (X : list Z -> R) (P W : nat -> list Z -> R).
Hypothesis HX : xconv P W.
Local Open Scope R_scope.
Lemma mixed_eq k (x y : Z -> Z -> Z -> R) : (k < L)%nat -> (forall c t p, x c t p = y c t p) -> let n := fun i => (1 + 8 * k + i)%nat in forall c t p,
  mixed C E (4 * C) (4 * E) eps (P (1 + 8 * k)%nat) (P (n 1%nat)) (P (n 2%nat)) (P (n 3%nat)) (P (n 4%nat)) (P (n 5%nat)) (P (n 6%nat)) (P (n 7%nat)) x c t p =
  torch_mixer C E eps gelu W (1 + 8 * k) y c t p.
Proof.
  intros Hk Hxy n. destruct (xc_b _ _ HX k Hk) as [B1 B2]. unfold n in *. clear n.
  assert (NE : forall g b w u (x y : Z -> Z -> Z -> R), (forall c t p, x c t p = y c t p) -> (forall p, g [p] = w [p]) -> (forall p, b [p] = u [p]) -> forall c t p, feature_norm E eps g b x c t p = layer_norm E eps w u y c t p).
  { intros g b w u x0 y0 H Hg Hb c t p. unfold feature_norm, layer_norm. cbv zeta. rewrite Hg, Hb, H.
    rewrite (Rsum_ext E (fun k => x0 c t k) (fun k => y0 c t k)) by (intros; apply H).
    rewrite (Rsum_ext E (fun k => (x0 c t k - _) * _) (fun k => (y0 c t k - Rsum E (fun k => y0 c t k) / IZR E) * (y0 c t k - Rsum E (fun k => y0 c t k) / IZR E))) by (intros; rewrite H; reflexivity).
    ring. }
  unfold mixed, torch_mixer. cbv zeta. set (y1 := fun c t p => swap (mixer_mlp _ _ _ _ _) c t p + y c t p).
  assert (E1 : forall c t p, mixed1 C E (4 * C) eps (P (1 + 8 * k)%nat) (P (1 + 8 * k + 1)%nat) (P (1 + 8 * k + 2)%nat) (P (1 + 8 * k + 3)%nat) x c t p = y1 c t p).
  { intros c t p. unfold mixed1, y1. rewrite Hxy, Rplus_comm. f_equal. unfold channel_mlp, swap, mixer_mlp, linear. apply Rsum_ext. intros j _.
    rewrite (proj1 (proj2 (B2 c j))). rewrite Rmult_comm. f_equal. f_equal. apply Rsum_ext. intros i _. rewrite (proj1 (B2 j i)), Rmult_comm. f_equal.
    apply NE; [exact Hxy| |]; intros q.
    - rewrite <- (Nat.add_0_r (1 + 8 * k)). apply B1.
    - apply B1. }
  intros c t p. unfold mixed2. rewrite E1, Rplus_comm. f_equal. unfold feature_mlp, mixer_mlp, linear. apply Rsum_ext. intros j _.
  rewrite (proj2 (proj2 (proj2 (B2 j p)))). f_equal. f_equal. apply Rsum_ext. intros i _. rewrite (proj1 (proj2 (proj2 (B2 i j)))). f_equal.
  apply NE; [exact E1| |]; intros q; apply B1.
Qed.
Theorem xconv_logits v t : mixer_logits C E Q eps X P L v t = torch_mixer_logits C E Q eps gelu X W L v t.
Proof.
  assert (HS : forall k, (k <= L)%nat -> forall c t p, mixer_states C E Q eps X P k c t p = torch_mixer_states C E Q eps gelu X W k c t p).
  { induction k as [|k IH]; intros Hk c t' p.
    - cbn [mixer_states torch_mixer_states]. unfold embedded_patches, linear. apply Rsum_ext. intros q _. rewrite (xc_0 _ _ HX). reflexivity.
    - cbn [mixer_states torch_mixer_states]. cbv zeta. apply mixed_eq; [lia|]. intros. apply IH. lia. }
  unfold mixer_logits, torch_mixer_logits, pooled. apply Rsum_ext. intros p _. rewrite (xc_h _ _ HX), Rmult_comm. f_equal. unfold Rdiv. f_equal. apply Rsum_ext. intros c _. apply HS. lia.
Qed.
End Fun.
End Model.

(** ** to_torch *)
Section Back.
Variables (C E Q V : Z) (L : nat).
Hypothesis HE : 0 < E.
Notation tsh := (torch_mixer_shapes C E Q V L).
Notation nsh := (mixer_shapes C E Q V L).
Lemma to_torch_model (W0 : nat -> list Z -> R) vs : map n_shape vs = nsh -> exists l, mixer_to_torch (parameters_of tsh W0) vs = Ok l /\ map n_shape l = tsh /\
  (forall j u v, nth_error nsh j = Some u -> nth_error tsh j = Some v -> forall idx, values l j idx = if hd 0 u =? hd 0 v then values vs j idx else values vs j (rev idx)).
Proof.
  intros HS. assert (HV : forall j v, nth_error vs j = Some v -> nth_error nsh j = Some (n_shape v)) by (intros j v Hv; rewrite <- HS; apply map_nth_error, Hv).
  assert (LV : List.length vs = (2 + 8 * L)%nat) by (rewrite <- (map_length n_shape), HS; apply nsh_nth).
  assert (EX : forall j, (j < 2 + 8 * L)%nat -> exists v u, nth_error vs j = Some v /\ nth_error tsh j = Some u /\ nth_error nsh j = Some (n_shape v)).
  { intros j Hj. destruct (nth_error vs j) as [v|] eqn:Ev; [|apply nth_error_None in Ev; lia]. destruct (pair_ex C E Q V L j _ (HV j v Ev)) as (u & Hu). exists v, u. auto. }
  assert (TS : forall j v u, nth_error vs j = Some v -> nth_error tsh j = Some u -> n_shape (turned u v) = u).
  { intros j v u Hv Hu. unfold turned. rewrite Z.eqb_sym. destruct (pair_shapes C E Q V L HE j _ _ (HV j v Hv) Hu) as (_ & _ & [[-> H]|[-> H]]); exact H. }
  eexists. split; [apply mixer_to_torch_ok|].
  - rewrite parameters_len, LV. symmetry. apply tsh_nth.
  - rewrite HS. apply nsh_ne; assumption.
  - rewrite parameters_shapes. apply tsh_ne; assumption.
  - intros j v a Hv Ha. rewrite parameters_nth in Ha. destruct (nth_error tsh j) as [u|] eqn:Hu; [|discriminate]. injection Ha as <-. cbn [n_shape]. eapply TS; eassumption.
  - set (l := map (fun '(a, v) => turned (n_shape a) v) (combine (parameters_of tsh W0) vs)).
    assert (NL : forall j u v, nth_error tsh j = Some u -> nth_error vs j = Some v -> nth_error l j = Some (turned u v)).
    { intros j u v Hu Hv. unfold l. rewrite nth_error_map.
      assert (Hw : nth_error (parameters_of tsh W0) j = Some (mkN u (W0 j))) by (rewrite parameters_nth, Hu; reflexivity).
      assert (E0 : nth_error (combine (parameters_of tsh W0) vs) j = Some (mkN u (W0 j), v)).
      { revert Hv Hw. generalize (mkN u (W0 j)) as w. generalize (parameters_of tsh W0) as a. clear. intros a w. revert a vs. induction j as [|j IH]; intros [|x a] [|y b] Hv Hw; try discriminate.
        - cbn in *. congruence. - cbn [nth_error combine] in *. apply IH; assumption. }
      rewrite E0. reflexivity. }
    split.
    + assert (EL : List.length l = (2 + 8 * L)%nat) by (unfold l; rewrite map_length, combine_length, parameters_len, LV, (proj1 (tsh_nth C E Q V L)); lia).
      apply (nth_ext _ _ [] []); [rewrite map_length, EL; symmetry; apply tsh_nth|]. intros j Hj. rewrite map_length, EL in Hj.
      destruct (EX j Hj) as (v & u & Hv & Hu & _). rewrite (nth_error_nth _ _ _ Hu), (nth_error_nth _ _ _ (map_nth_error n_shape _ _ (NL j u v Hu Hv))). eapply TS; eassumption.
    + intros j u v Hu Hv idx. assert (Hj : (j < 2 + 8 * L)%nat) by (rewrite <- (proj1 (nsh_nth C E Q V L)); apply nth_error_Some; congruence).
      destruct (EX j Hj) as (w & u' & Hw & Hu' & Hn). unfold values. rewrite (nth_error_nth _ _ _ (NL j v w Hv Hw)), (nth_error_nth _ _ _ Hw).
      assert (Eu : n_shape w = u) by congruence. unfold turned. rewrite Eu, Z.eqb_sym. destruct (hd 0 u =? hd 0 v); reflexivity.
Qed.
(** to_torch undoes from_torch's conversion, whatever the torch model held before *)
Theorem C72_round_trip (W W0 : nat -> list Z -> R) :
  exists l ps, mixer_arrays nsh (parameters_of tsh W) = Ok l /\ mixer_to_torch (parameters_of tsh W0) l = Ok ps /\ map n_shape ps = tsh /\
    forall j idx, (j < List.length tsh)%nat -> values ps j idx = W j idx.
Proof.
  destruct (mixer_arrays_model C E Q V L HE W) as (l & E1 & S1 & V1). destruct (to_torch_model W0 l S1) as (ps & E2 & S2 & V2).
  exists l, ps. repeat (split; [assumption|]). intros j idx Hj. rewrite (proj1 (tsh_nth C E Q V L)) in Hj.
  destruct (nth_error nsh j) as [u|] eqn:Hu; [|apply nth_error_None in Hu; rewrite (proj1 (nsh_nth C E Q V L)) in Hu; lia].
  destruct (pair_ex C E Q V L j u Hu) as (v & Hv). rewrite (V2 j u v Hu Hv), !(V1 j u v Hu Hv). destruct (hd 0 u =? hd 0 v); [reflexivity|]. rewrite rev_involutive. reflexivity.
Qed.
(** Full statement: after to_torch, the torch model computes what NNTile's model computes.  Proved when
    the number of pixels of a patch differs from the number of features. *)
Theorem C72_to_torch_partial (P W0 : nat -> list Z -> R) ts q (s : store XR) :
  Q <> E -> map t_shape ts = nsh -> saveable s ts q ->
  (forall j t idx, nth_error ts j = Some t -> inb (t_shape t) idx -> elem s t idx = Fin (P j idx)) ->
  let arrays := map (fun '(j, t) => mkN (t_shape t) (P j)) (combine (seq 0 (List.length ts)) ts) in
  runs_nd (read_parameters q ts) s (fun s' => holds_arrays s' (fun j => sl_mem (q j)) arrays) /\
  exists ps, mixer_to_torch (parameters_of tsh W0) arrays = Ok ps /\ map n_shape ps = tsh /\
    forall eps X v t, torch_mixer_logits C E Q eps gelu X (values ps) L v t = mixer_logits C E Q eps X P L v t.
Proof.
  intros HQ EP HS HP arrays.
  assert (AN : forall j, nth_error arrays j = option_map (fun t => mkN (t_shape t) (P j)) (nth_error ts j)).
  { intros j. unfold arrays.
    assert (G : forall k ts j, nth_error (map (fun '(j, t) => mkN (t_shape t) (P j)) (combine (seq k (List.length ts)) ts)) j = option_map (fun t => mkN (t_shape t) (P (k + j)%nat)) (nth_error ts j)).
    { clear. intros k ts. revert k. induction ts as [|t ts IH]; intros k j; [destruct j; reflexivity|]. cbn [List.length seq combine map].
      destruct j; cbn [nth_error option_map]; [rewrite Nat.add_0_r; reflexivity|]. rewrite IH. replace (S k + j)%nat with (k + S j)%nat by lia. reflexivity. }
    exact (G 0%nat ts j). }
  split.
  - rewrite read_saves. eapply nd_weaken; [apply saves_runs; exact HS|]. intros s' _ [H1 _] j a idx Ha Hi. rewrite AN in Ha.
    destruct (nth_error ts j) as [t|] eqn:Et; [|discriminate]. injection Ha as <-. cbn [n_shape n_at] in *.
    change {| a_shape := t_shape t; a_mem := sl_mem (q j) |} with (zeros_like t (q j)). rewrite (H1 j t idx Et Hi). cbn [rounded]. apply HP; assumption.
  - assert (ES : map n_shape arrays = nsh).
    { rewrite <- EP. unfold arrays. generalize 0%nat as k. clear. induction ts as [|t ts IH]; intros k; [reflexivity|]. cbn [List.length seq combine map n_shape]. f_equal. apply IH. }
    destruct (to_torch_model W0 arrays ES) as (ps & E1 & S1 & V1). exists ps. split; [exact E1|]. split; [exact S1|]. intros eps X v0 t'. symmetry.
    assert (PV : forall j, (j < 2 + 8 * L)%nat -> values arrays j = P j).
    { intros j Hj. unfold values. destruct (nth_error ts j) as [t|] eqn:Et.
      - assert (Ea := AN j). rewrite Et in Ea. cbn [option_map] in Ea. rewrite (nth_error_nth _ _ _ Ea). reflexivity.
      - exfalso. apply nth_error_None in Et. rewrite <- (map_length t_shape), EP, (proj1 (nsh_nth C E Q V L)) in Et. lia. }
    apply xconv_logits. apply (values_xconv C E Q V L HE); [exact HQ|]. intros j u v Hu Hv idx.
    assert (Hj : (j < 2 + 8 * L)%nat) by (rewrite <- (proj1 (nsh_nth C E Q V L)); apply nth_error_Some; congruence).
    rewrite !(V1 j u v Hu Hv), PV by exact Hj. destruct (hd 0 u =? hd 0 v); [reflexivity|]. rewrite rev_involutive. reflexivity.
Qed.
End Back.

(** ** from_torch as tasks *)
Lemma load_arrays_runs l mem q ts (s : store XR) :
  map n_shape l = map t_shape ts -> Forall (fun sh => sh <> []) (map t_shape ts) -> room s mem q ts -> holds_arrays s mem l ->
  runs_nd (loads false q (map (fun x => (Numpy, x)) (in_memory mem l)) ts) s (fun s' =>
    (forall j t idx, nth_error ts j = Some t -> inb (t_shape t) idx -> elem s' t idx = Fin (values l j idx)) /\
    (forall k, (forall j, (j < List.length ts)%nat -> k <> sl_next (q j)) -> (forall t, In t ts -> ~ In k (tile_handles t)) -> s' k = s k)).
Proof.
  intros ES HN HR HA.
  assert (EL : List.length l = List.length ts) by (rewrite <- (map_length n_shape), ES; apply map_length).
  eapply nd_weaken; [apply loads_runs; [discriminate|rewrite map_length, in_memory_len, EL; lia|]|].
  { rewrite map_snd_pair. apply room_loadable; assumption. }
  intros s' _ [H1 H2]. split.
  - intros j t idx Ht Hi. destruct (nth_error l j) as [a|] eqn:Ea.
    + rewrite (H1 j (Numpy, {| a_shape := n_shape a; a_mem := mem j |}) t idx); [|apply map_nth_error; rewrite in_memory_nth, Ea; reflexivity|exact Ht|exact Hi].
      cbn [snd]. assert (En : n_shape a = t_shape t).
      { pose proof (map_nth_error n_shape _ _ Ea). apply (map_nth_error t_shape) in Ht. congruence. }
      rewrite (HA j a idx Ea) by (rewrite En; exact Hi). unfold values. rewrite (nth_error_nth _ _ _ Ea). reflexivity.
    + exfalso. apply nth_error_None in Ea. assert (j < List.length ts)%nat by (apply nth_error_Some; congruence). lia.
  - intros k K1 K2. apply H2.
    + intros j Hj. rewrite map_length, in_memory_len, EL in Hj. apply K1, Hj.
    + intros j t Hj Ht. apply K2. eapply nth_error_In; exact Ht.
Qed.

(** Before the parameters are loaded: the state of C63 but for the values of the parameters *)
Record mixer_unloaded (os : list mobj) (b : build) (x labels : tensor) (C B Q : Z) (X : arr) (lab : Z -> Z) (np : nat) (G : nat -> arr) (L0 : R) (s : store XR) : Prop := {
  mu_alloc : forall v t, b_mem b v = Some t -> stored KF s t;
  mu_x : forall c t q, 0 <= c < C -> 0 <= t < B -> 0 <= q < Q -> elem s x [c; t; q] = Fin (X [c; t; q]);
  mu_labels : stored KI s labels /\ forall t, 0 <= t < B -> ielem s labels [t] = lab t;
  mu_grads : forall j idx, (j < np)%nat -> inb (t_shape (mpgrad os b j)) idx -> elem s (mpgrad os b j) idx = Fin (G j idx);
  mu_loss : elem s (loss_val b) [] = Fin L0
}.
Definition mixer_params_of (os : list mobj) (b : build) : list tensor := map (fun m => PyModels.bt b (Val m)) (mm_params os).

Lemma mixer_param_nodes C B bt E Q Qt V x n lo b : mbuilt C B bt E Q Qt V x n lo b ->
  forall j, (j < 2 + 8 * n)%nat -> nth j (m_params n) O <> O /\ exists tr, hasn b (nth j (m_params n) O) tr.
Proof.
  intros HB' j Hj. assert (PL := mparams_len n). assert (Hin : In (nth j (m_params n) O) (m_params n)) by (apply nth_In; rewrite PL; assumption). revert Hin. generalize (nth j (m_params n) O) as m. intros m Hin. split.
  { intros ->. assert (PD := mparams_nodup n). inversion PD; contradiction. }
  apply in_mparams in Hin as [-> | [(k & Hk & Hin) | -> ]].
  - eexists. apply (mb_pre _ _ _ _ _ _ _ _ _ _ _ HB' 0%nat). reflexivity.
  - apply mparams_range in Hin. assert (exists tr, nth_error (mix_nodes C B bt E) (m - mfirst k) = Some tr) as [tr Etr].
    { destruct (nth_error (mix_nodes C B bt E) (m - mfirst k)) eqn:En; [eauto|]. apply nth_error_None in En. cbn [List.length mix_nodes app] in En. unfold mfirst in *. lia. }
    exists tr. replace m with (mfirst k + (m - mfirst k))%nat by lia. eapply (mb_blk _ _ _ _ _ _ _ _ _ _ _ HB'); [lia|exact Etr].
  - eexists. apply (mb_post _ _ _ _ _ _ _ _ _ _ _ HB' 2%nat). reflexivity.
Qed.

Lemma mixer_loaded_step C B E Q V layers next :
  0 < C -> 0 < B -> 0 < E -> 0 < Q -> 0 < V -> (0 < layers)%nat ->
  let torch := fun W : nat -> list Z -> R => parameters_of (torch_mixer_shapes C E Q V layers) W in
  exists x os b0 labels b,
    (forall W, mixer_of_torch (torch W) B V next = Ok (x, os, b0)) /\ gen_cross_entropy (last_out os) b0 = Ok (labels, b) /\
    t_shape x = [C; B; Q] /\
    forall W, exists l, mixer_arrays (map t_shape (mixer_params_of os b)) (torch W) = Ok l /\ map n_shape l = map t_shape (mixer_params_of os b) /\
    (forall j u v, nth_error (mixer_shapes C E Q V layers) j = Some u -> nth_error (torch_mixer_shapes C E Q V layers) j = Some v -> forall idx, values l j idx = if hd 0 u =? hd 0 v then W j idx else W j (rev idx)) /\
    forall X lab G a L0 mem q s,
      let np := (2 + 8 * layers)%nat in
      let model := mixer_logits C E Q (/ 100000)%R X (values l) layers in
      (forall t, 0 <= t < B -> 0 <= lab t < V) ->
      room s mem q (mixer_params_of os b) -> holds_arrays s mem l ->
      (forall j t, (j < np)%nat -> t = labels \/ (exists v, b_mem b v = Some t) -> ~ In (sl_next (q j)) (tile_handles t)) ->
      mixer_unloaded os b x labels C B Q X lab np G L0 s ->
      runs_any (then_ (mixer_load (torch W) mem q (mixer_params_of os b)) (mixer_step a os labels b)) s (fun s' =>
        (forall v t, 0 <= v < V -> 0 <= t < B -> elem s' (PyModels.bt b (Val (last_out os))) [v; t] = Fin (model v t)) /\
        elem s' (loss_val b) [] = Fin (L0 + a * class_cross_entropy B V lab model)%R).
Proof.
  intros hC hB hE hQ hV Hn torch.
  assert (HG : mdims C B B E Q Q V) by (split; assumption).
  set (w0 := mkB (fun _ => None) next 0 [] []).
  assert (HF3 : fit [C; B; Q] [C; B; Q]) by (split; [reflexivity|]; split; repeat constructor; assumption).
  assert (H1 : prodZ (gridZ [C; B; Q] [C; B; Q]) = 1).
  { assert (G1 : forall z, 0 < z -> (z + z - 1) / z = 1) by (intros z Hz; symmetry; apply (Z.div_unique _ _ _ (z - 1)); lia). unfold gridZ. cbn [map2 prodZ]. rewrite !G1 by assumption. reflexivity. }
  pose proof (mk_ok next [C; B; Q] [C; B; Q] (fun _ => [0]) w0 HF3 ltac:(rewrite H1; reflexivity) ltac:(cbn; lia)) as K0. unfold okp in K0.
  destruct (mk_tensor [C; B; Q] [C; B; Q] (fun _ => [0]) w0) as [[x w1]| |] eqn:E0; try contradiction.
  destruct K0 as (Wx & Tx & Hh & M1 & N1 & _). cbn [b_next w0] in Hh, N1.
  pose proof (mlp_mixer_ok C B B E Q Q V HG x layers next (b_next w1) Hn Wx Tx N1 Hh) as K1. unfold okp in K1. destruct (mlp_mixer x E layers V (b_next w1)) as [[os b0]| |] eqn:E1; try contradiction.
  destruct K1 as (-> & HB & Ht).
  assert (El := mlid_eq C B B E Q Q V x layers next b0 HB). assert (Eo := mout_eq layers).
  destruct (mb_post _ _ _ _ _ _ _ _ _ _ _ HB 3%nat _ eq_refl) as [N2 _]. cbn [fst snd] in N2.
  assert (HF : fit [V; B] [V; B]) by (apply fit2; assumption).
  pose proof (gen_ce_ok next (mfirst layers + 3) V [B] [B] b0 (mb_inv _ _ _ _ _ _ _ _ _ _ _ HB) Ht N2 HF) as K2.
  unfold okp in K2. rewrite <- Eo in K2. destruct (gen_cross_entropy (last_out (all_objs layers)) b0) as [[labels b]| |] eqn:E2; try contradiction.
  destruct K2 as (HI & HX & Hn' & HL & HA & Wl & (Sl & Bl & _) & _ & Dl & C0 & C1 & C2 & _). rewrite El in C0, C1, C2.
  assert (HB' := mbuilt_ext _ _ _ _ _ _ _ _ _ _ _ _ HB HI HX Hn' HL).
  exists x, (all_objs layers), b0, labels, b.
  split; [|split; [exact E2|split; [apply Tx|]]].
  { intros W. destruct (tsh_nth C E Q V layers) as (Tl & T0 & Tb & _). unfold mixer_of_torch.
    assert (EM : mixer_dims (torch W) = Ok (E, Q, C)).
    { assert (N0 : nth_error (torch W) 0 = Some (mkN [E; Q] (W O))) by (unfold torch; rewrite parameters_nth, T0; reflexivity).
      assert (N3 : nth_error (torch W) 3 = Some (mkN [4 * C; C] (W 3%nat))) by (unfold torch; rewrite parameters_nth; rewrite (Tb O 2%nat ltac:(lia) ltac:(lia) : nth_error (torch_mixer_shapes C E Q V layers) 3 = _); reflexivity).
      destruct (torch W) as [|p0 ps]; [discriminate|]. injection N0 as ->. unfold mixer_dims. rewrite N3. reflexivity. }
    assert (EN : mixer_layers (torch W) = layers).
    { unfold mixer_layers, zlen. unfold torch. rewrite parameters_len, Tl. replace (Z.of_nat (2 + 8 * layers) - 2) with (Z.of_nat layers * 8) by lia. rewrite Z.quot_mul by lia. apply Nat2Z.id. }
    rewrite EM. cbn [bind]. fold w0. rewrite E0. cbn [bind]. rewrite EN, E1. reflexivity. }
  assert (EP : map t_shape (mixer_params_of (all_objs layers) b) = mixer_shapes C E Q V layers) by (unfold mixer_params_of; rewrite map_map; apply (mshapes_eq C B B E Q Q V x layers next b HB')).
  intros W. destruct (mixer_arrays_model C E Q V layers hE W) as (l & Ea & Sa & Va). exists l. rewrite EP. split; [exact Ea|]. split; [exact Sa|]. split; [exact Va|].
  intros X lab G a L0 mem q s np model Hlab HR HA' Hsep Hu.
  assert (EPm := mm_params_eq layers). assert (PL := mparams_len layers).
  assert (PN : forall j, (j < np)%nat -> nth_error (mixer_params_of (all_objs layers) b) j = Some (mpval (all_objs layers) b j)).
  { intros j Hj. unfold mixer_params_of, mpval. apply (map_nth_error (fun m => PyModels.bt b (Val m))). apply nth_error_nth'. rewrite EPm, PL. exact Hj. }
  assert (PLn : List.length (mixer_params_of (all_objs layers) b) = np) by (unfold mixer_params_of; rewrite map_length, EPm; exact PL).
  assert (HN : forall j, (j < np)%nat -> nth j (m_params layers) O <> O /\ exists u g, b_mem b (Val (nth j (m_params layers) O)) = Some u /\ b_mem b (Grad (nth j (m_params layers) O)) = Some g /\ mpval (all_objs layers) b j = u /\ mpgrad (all_objs layers) b j = g).
  { intros j Hj. destruct (mixer_param_nodes C B B E Q Q V x layers next b HB' j Hj) as (Z0 & tr & (u & U1 & _) & (g & G1 & _)). split; [exact Z0|].
    exists u, g. unfold mpval, mpgrad, PyModels.bt. rewrite EPm, U1, G1. tauto. }
  assert (PI : forall t, In t (mixer_params_of (all_objs layers) b) -> exists m, m <> O /\ b_mem b (Val m) = Some t).
  { intros t Ht'. apply In_nth_error in Ht' as (j & Hj). assert (Hjn : (j < np)%nat) by (rewrite <- PLn; apply nth_error_Some; congruence).
    rewrite (PN j Hjn) in Hj. injection Hj as <-. destruct (HN j Hjn) as (Z0 & u & g & U1 & _ & -> & _). eauto. }
  unfold mixer_load, torch. rewrite EP, Ea. cbn [bind].
  eapply any_then_l; [apply (load_arrays_runs l mem q _ s); [congruence|rewrite EP; apply nsh_ne; exact hE|exact HR|exact HA']|].
  intros s1 I1 [V1 F1].
  assert (FR : forall t, t = labels \/ (exists v, b_mem b v = Some t /\ forall m, m <> O -> v <> Val m) -> forall k, In k (tile_handles t) -> s1 k = s k).
  { intros t Ht' k Hk. apply F1.
    - intros j Hj ->. rewrite PLn in Hj. apply (Hsep j t Hj); [|exact Hk]. destruct Ht' as [H|(v & Hv & _)]; [left; exact H|right; exists v; exact Hv].
    - intros u Hu' Ku. destruct (PI u Hu') as (m & Z0 & Hm'). destruct Ht' as [->|(v & Hv & Nv)].
      + exact (Dl _ _ Hm' k Hk Ku).
      + exact (bi_disj _ _ HI _ _ _ _ Hv Hm' (Nv m Z0) k Hk Ku). }
  assert (HS : mixer_state (all_objs layers) b x labels C B Q X lab np (values l) G L0 s1).
  { destruct Hu as [u1 u2 [u3 u3'] u4 u5]. split.
    - intros v t Hv. eapply tinv_stored; [exact I1|]. exact (u1 v t Hv).
    - intros c t q' Hc Ht0 Hq. rewrite <- (u2 c t q' Hc Ht0 Hq). apply elem_ext; [exact Wx|destruct Tx as (-> & _); repeat constructor; lia|]. apply FR. right. exists (Val 0). split; [exact (mb_x _ _ _ _ _ _ _ _ _ _ _ HB')|]. intros m Hm E'. injection E' as <-. contradiction.
    - split; [eapply tinv_stored; [exact I1|exact u3]|]. intros t Ht0. rewrite <- (u3' t Ht0). apply ielem_ext; [exact Wl|rewrite Sl; repeat constructor; lia|]. apply FR. left. reflexivity.
    - intros j idx Hj Hx. apply (V1 j (mpval (all_objs layers) b j) idx); [apply PN; exact Hj|exact Hx].
    - intros j idx Hj Hx. rewrite <- (u4 j idx Hj Hx). destruct (HN j Hj) as (_ & u & g & _ & G1 & _ & G2). rewrite G2 in *.
      apply elem_ext; [apply (bi_wf _ _ HI _ _ G1)|exact Hx|]. apply FR. right. eexists. split; [exact G1|]. discriminate.
    - rewrite <- u5. destruct (hast_U b _ _ _ C0) as (U0 & S0 & B0). destruct (bU_inv b _ U0) as (t & Et & Eb).
      assert (Elv : loss_val b = PyModels.bt b (Tmp (2 + 8 * layers) 0)) by (unfold loss_val; rewrite (mlid_eq C B B E Q Q V x layers next b HB'); reflexivity).
      rewrite Elv. rewrite Eb in *. apply elem_ext; [apply (bi_wf _ _ HI _ _ Et)|rewrite S0; constructor|]. apply FR. right. eexists. split; [exact Et|]. discriminate. }
  destruct Tx as (Tx1 & Tx2 & _).
  eapply any_weaken; [apply (mixer_step_runs C B B E Q Q V x labels layers next b HG HB' (conj Tx1 Tx2) (conj Sl Bl) Wl Dl (conj C0 (conj C1 C2)) X lab (values l) G a L0 s1 Hlab HS)|].
  intros s2 _ (O1 & O2 & _).
  split; [exact O1|exact O2].
Qed.

(** Full statement: from_torch's model computes what the torch model computes.  Proved when the number
    of pixels of a patch differs from the number of features ([C72_square_refuted]). *)
Theorem C72_pretrained_mixer_partial C B E Q V layers next :
  0 < C -> 0 < B -> 0 < E -> 0 < Q -> 0 < V -> (0 < layers)%nat -> Q <> E ->
  let torch := fun W : nat -> list Z -> R => parameters_of (torch_mixer_shapes C E Q V layers) W in
  exists x os b0 labels b,
    (forall W, mixer_of_torch (torch W) B V next = Ok (x, os, b0)) /\ gen_cross_entropy (last_out os) b0 = Ok (labels, b) /\
    t_shape x = [C; B; Q] /\
    forall W, exists l, mixer_arrays (map t_shape (mixer_params_of os b)) (torch W) = Ok l /\ map n_shape l = map t_shape (mixer_params_of os b) /\
    forall X lab G a L0 mem q s,
      let np := (2 + 8 * layers)%nat in
      let model := torch_mixer_logits C E Q (/ 100000)%R gelu X W layers in
      (forall t, 0 <= t < B -> 0 <= lab t < V) ->
      room s mem q (mixer_params_of os b) -> holds_arrays s mem l ->
      (forall j t, (j < np)%nat -> t = labels \/ (exists v, b_mem b v = Some t) -> ~ In (sl_next (q j)) (tile_handles t)) ->
      mixer_unloaded os b x labels C B Q X lab np G L0 s ->
      runs_any (then_ (mixer_load (torch W) mem q (mixer_params_of os b)) (mixer_step a os labels b)) s (fun s' =>
        (forall v t, 0 <= v < V -> 0 <= t < B -> elem s' (PyModels.bt b (Val (last_out os))) [v; t] = Fin (model v t)) /\
        elem s' (loss_val b) [] = Fin (L0 + a * class_cross_entropy B V lab model)%R).
Proof.
  intros hC hB hE hQ hV Hn HQ torch. destruct (mixer_loaded_step C B E Q V layers next hC hB hE hQ hV Hn) as (x & os & b0 & labels & b & H1 & H2 & H3 & H4).
  exists x, os, b0, labels, b. split; [exact H1|]. split; [exact H2|]. split; [exact H3|]. intros W. destruct (H4 W) as (l & Ea & Sa & Va & Hr). exists l. split; [exact Ea|]. split; [exact Sa|].
  intros X lab G a L0 mem q s np model Hlab HR HA' Hsep Hu.
  eapply any_weaken; [apply (Hr X lab G a L0 mem q s Hlab HR HA' Hsep Hu)|]. intros s' _ [O1 O2].
  assert (XC : xconv layers (values l) W) by (apply (values_xconv C E Q V layers hE); assumption).
  assert (EM : forall v t, mixer_logits C E Q (/ 100000)%R X (values l) layers v t = model v t) by (intros v t; apply xconv_logits; exact XC).
  split.
  - intros v t Hv Ht0. rewrite O1 by assumption. rewrite EM. reflexivity.
  - rewrite O2. do 3 f_equal. unfold class_cross_entropy. apply Rsum_ext. intros t _. rewrite EM. f_equal. f_equal. apply Rsum_ext. intros v _. rewrite EM. reflexivity.
Qed.

(** ** A square first weight is not transposed *)
Definition ex_W (layers j : nat) (idx : list Z) : R :=
  if Nat.eq_dec j O then (if list_eq_dec Z.eq_dec idx [0; 1] then 1%R else 0%R)
  else if Nat.eq_dec j (1 + 8 * layers) then (if list_eq_dec Z.eq_dec idx [0; 0] then 1%R else 0%R) else 0%R.
Definition ex_X (idx : list Z) : R := match idx with [_; _; q] => if q =? 1 then 1%R else 0%R | _ => 0%R end.
Lemma Rsum_zero n f : (forall i, 0 <= i < n -> f i = 0%R) -> Rsum n f = 0%R.
Proof. intros H. apply Rsuml_0. intros x Hx. apply H. apply zrange_In. exact Hx. Qed.
Lemma ex_W_block layers k i idx : (k < layers)%nat -> (i < 8)%nat -> ex_W layers (1 + 8 * k + i) idx = 0%R.
Proof. intros Hk Hi. unfold ex_W. destruct Nat.eq_dec; [lia|]. destruct Nat.eq_dec; [lia|]. reflexivity. Qed.
Lemma ex_torch C E V layers t : 0 < C -> 2 <= E -> torch_mixer_logits C E E (/ 100000)%R gelu ex_X (ex_W layers) layers V t = (if V =? 0 then 1%R else 0%R).
Proof.
  intros HC HE.
  assert (HS : forall k, (k <= layers)%nat -> forall c t p, torch_mixer_states C E E (/ 100000)%R gelu ex_X (ex_W layers) k c t p = (if p =? 0 then 1%R else 0%R)).
  { induction k as [|k IH]; intros Hk c t' p.
    - cbn [torch_mixer_states]. unfold linear.
      rewrite (Rsum_ext E _ (fun q => if q =? 1 then (if p =? 0 then 1%R else 0%R) else 0%R)).
      + rewrite Rsum_delta by lia. reflexivity.
      + intros q _. unfold ex_X, ex_W. destruct (Nat.eq_dec 0 0); [|lia]. destruct (Z.eqb_spec q 1) as [->|]; [|ring]. destruct list_eq_dec as [e'|e'], (Z.eqb_spec p 0); try ring; try congruence; exfalso; apply e'; congruence.
    - cbn [torch_mixer_states]. cbv zeta. unfold torch_mixer. cbv zeta. unfold mixer_mlp, linear, swap.
      rewrite Rsum_zero; [rewrite Rsum_zero; [rewrite IH by lia; ring|]|]; intros j _; rewrite ex_W_block by lia; ring. }
  unfold torch_mixer_logits. rewrite (Rsum_ext E _ (fun p => if p =? 0 then (if V =? 0 then 1%R else 0%R) else 0%R)).
  - rewrite Rsum_delta by lia. reflexivity.
  - intros p _. rewrite (Rsum_ext C _ (fun _ => if p =? 0 then 1%R else 0%R)) by (intros c _; apply HS; lia).
    rewrite Rsum_const by lia. assert (IZR C <> 0%R) by (apply not_0_IZR; lia).
    unfold ex_W. destruct Nat.eq_dec; [lia|]. destruct Nat.eq_dec; [|lia]. destruct (Z.eqb_spec p 0) as [->|]; [|field; assumption].
    destruct list_eq_dec as [e'|e'], (Z.eqb_spec V 0); try (field; assumption); try congruence; exfalso; apply e'; congruence.
Qed.
Lemma ex_nntile C E layers (P : nat -> list Z -> R) v t : 2 <= E ->
  (forall q p, P O [q; p] = ex_W layers O [q; p]) -> (forall k i j p, (k < layers)%nat -> (i < 8)%nat -> P (1 + 8 * k + i)%nat [j; p] = 0%R) ->
  mixer_logits C E E (/ 100000)%R ex_X P layers v t = 0%R.
Proof.
  intros HE H0 Hb.
  assert (HS : forall k, (k <= layers)%nat -> forall c t p, mixer_states C E E (/ 100000)%R ex_X P k c t p = 0%R).
  { induction k as [|k IH]; intros Hk c t' p.
    - cbn [mixer_states]. unfold embedded_patches. apply Rsum_zero. intros q _. rewrite H0. unfold ex_X, ex_W. destruct (Nat.eq_dec 0 0); [|lia].
      destruct (Z.eqb_spec q 1) as [->|]; [|ring]. destruct list_eq_dec as [e'|e']; [discriminate e'|ring].
    - cbn [mixer_states]. cbv zeta. unfold mixed, mixed2, mixed1, channel_mlp, feature_mlp. rewrite IH by lia.
      rewrite Rsum_zero; [rewrite Rsum_zero; [ring|]|]; intros j _; rewrite Hb by lia; ring. }
  unfold mixer_logits, pooled. apply Rsum_zero. intros p _. rewrite Rsum_zero; [unfold Rdiv; ring|]. intros c _. apply HS. lia.
Qed.
(** With as many features as pixels, whatever the other sizes (two features or more), there are torch
    parameters and an input such that from_torch's model does not compute what torch computes. *)
Theorem C72_square_refuted C B E V layers next :
  0 < C -> 0 < B -> 2 <= E -> 0 < V -> (0 < layers)%nat ->
  exists x os b0 labels b W l X,
    let torch := parameters_of (torch_mixer_shapes C E E V layers) W in
    mixer_of_torch torch B V next = Ok (x, os, b0) /\ gen_cross_entropy (last_out os) b0 = Ok (labels, b) /\ t_shape x = [C; B; E] /\
    mixer_arrays (map t_shape (mixer_params_of os b)) torch = Ok l /\
    forall lab G a L0 mem q s,
      let np := (2 + 8 * layers)%nat in
      (forall t, 0 <= t < B -> 0 <= lab t < V) ->
      room s mem q (mixer_params_of os b) -> holds_arrays s mem l ->
      (forall j t, (j < np)%nat -> t = labels \/ (exists v, b_mem b v = Some t) -> ~ In (sl_next (q j)) (tile_handles t)) ->
      mixer_unloaded os b x labels C B E X lab np G L0 s ->
      runs_any (then_ (mixer_load torch mem q (mixer_params_of os b)) (mixer_step a os labels b)) s (fun s' =>
        exists r, elem s' (PyModels.bt b (Val (last_out os))) [0; 0] = Fin r /\ r <> torch_mixer_logits C E E (/ 100000)%R gelu X W layers 0 0).
Proof.
  intros hC hB hE hV Hn. destruct (mixer_loaded_step C B E E V layers next hC hB ltac:(lia) ltac:(lia) hV Hn) as (x & os & b0 & labels & b & H1 & H2 & H3 & H4).
  destruct (H4 (ex_W layers)) as (l & Ea & Sa & Va & Hr). exists x, os, b0, labels, b, (ex_W layers), l, ex_X. cbv zeta.
  split; [apply H1|]. split; [exact H2|]. split; [exact H3|]. split; [exact Ea|].
  intros lab G a L0 mem q s Hlab HR HA' Hsep Hu.
  eapply any_weaken; [apply (Hr ex_X lab G a L0 mem q s Hlab HR HA' Hsep Hu)|]. intros s' _ [O1 _].
  exists 0%R. split.
  - rewrite O1 by lia. f_equal. apply ex_nntile; [exact hE| |].
    + intros i p. destruct (nsh_nth C E E V layers) as (_ & N0 & _), (tsh_nth C E E V layers) as (_ & T0 & _). rewrite (Va _ _ _ N0 T0). cbn [hd]. rewrite Z.eqb_refl. reflexivity.
    + intros k i j p Hk Hi. destruct (nsh_nth C E E V layers) as (Nl & _), (tsh_nth C E E V layers) as (Tl & _).
      destruct (nth_error (mixer_shapes C E E V layers) (1 + 8 * k + i)) as [u|] eqn:Eu; [|apply nth_error_None in Eu; lia].
      destruct (nth_error (torch_mixer_shapes C E E V layers) (1 + 8 * k + i)) as [v|] eqn:Ev; [|apply nth_error_None in Ev; lia].
      rewrite (Va _ _ _ Eu Ev). destruct (hd 0 u =? hd 0 v); apply ex_W_block; assumption.
  - rewrite ex_torch by lia. cbn. lra.
Qed.
