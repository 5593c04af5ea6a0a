(** * Real-number facts behind maxsumexp, softmax, logsumexp, sumnorm, normalize *)
From Coq Require Import Reals Lra Lia Permutation Classical.
From Verif Require Import Base Spec Traits TraitsProofs Runtime Ops TensorSem OneOut SoftmaxOps SoftmaxProofs RealOps RSum XReals.
Local Open Scope R_scope.

(** ** Specification *)
(** A score is a finite number or minus infinity (masked). *)
Definition score (x : XR) : Prop := match x with Fin _ | NInf => True | _ => False end.
(** exp(x - M); a masked score contributes nothing *)
Definition expm (M : R) (x : XR) : R := match x with Fin r => exp (r - M) | _ => 0 end.
(** all masked *)
Definition masked (l : list XR) : Prop := forall r, ~ In (Fin r) l.
(** M is the largest finite score of l *)
Definition is_max (l : list XR) (M : R) : Prop := In (Fin M) l /\ forall r, In (Fin r) l -> r <= M.
(** the pair [p] stands for the scores [l]: second component 0 if there is nothing unmasked, else
    (max, sum of exp(x - max)) *)
Definition rep (p : XR * XR) (l : list XR) : Prop :=
  (masked l /\ snd p = Fin 0) \/
  (exists M, is_max l M /\ p = (Fin M, Fin (Rsuml l (expm M)))).
(** sum of exp(x) *)
Definition sumexp (l : list XR) : R := Rsuml l (expm 0).
(** softmax entry of x among l *)
Definition softmax_val (a : R) (l : list XR) (x : XR) : XR :=
  match x with Fin r => Fin (a * (exp r / sumexp l)) | _ => Fin 0 end.

(** ** maxsumexp *)
Lemma expm_nonneg M x : 0 <= expm M x.
Proof. destruct x; cbn; try lra. left. apply exp_pos. Qed.
Lemma expm_shift M N l : Rsuml l (expm M) * exp (M - N) = Rsuml l (expm N).
Proof.
  rewrite Rmult_comm, <- Rsuml_scal. apply Rsuml_ext. intros [r| | |] _; cbn; try lra. rewrite <- exp_plus. f_equal. lra.
Qed.
Lemma masked_sum l M : masked l -> Rsuml l (expm M) = 0.
Proof. intros H. apply Rsuml_0. intros [r| | |] Hx; try reflexivity. destruct (H r Hx). Qed.
Lemma masked_app l1 l2 : masked (l1 ++ l2) <-> masked l1 /\ masked l2.
Proof.
  unfold masked. split.
  - intros H. split; intros r Hr; apply (H r); apply in_or_app; tauto.
  - intros [H1 H2] r Hr. apply in_app_or in Hr as [Hr|Hr]; [eapply H1|eapply H2]; eassumption.
Qed.
Lemma is_max_app l1 l2 M1 M2 : is_max l1 M1 -> is_max l2 M2 -> is_max (l1 ++ l2) (Rmax M1 M2).
Proof.
  intros [A1 B1] [A2 B2]. split.
  - apply in_or_app. unfold Rmax. destruct (Rle_dec M1 M2); tauto.
  - intros r Hr. apply in_app_or in Hr as [Hr|Hr]; [apply B1 in Hr|apply B2 in Hr]; pose proof (Rmax_l M1 M2); pose proof (Rmax_r M1 M2); lra.
Qed.
Lemma is_max_masked_l l1 l2 M : masked l1 -> is_max l2 M -> is_max (l1 ++ l2) M.
Proof.
  intros H [A B]. split; [apply in_or_app; tauto|]. intros r Hr. apply in_app_or in Hr as [Hr|Hr]; [destruct (H r Hr)|auto].
Qed.
Lemma is_max_masked_r l1 l2 M : is_max l1 M -> masked l2 -> is_max (l1 ++ l2) M.
Proof.
  intros [A B] H. split; [apply in_or_app; tauto|]. intros r Hr. apply in_app_or in Hr as [Hr|Hr]; [auto|destruct (H r Hr)].
Qed.
Lemma is_max_sum l M N : is_max l M -> 0 < Rsuml l (expm N).
Proof.
  intros [H _]. apply in_split in H as (l1 & l2 & ->). rewrite Rsuml_app, Rsuml_cons.
  pose proof (Rsuml_nonneg l1 (expm N) (fun x _ => expm_nonneg N x)).
  pose proof (Rsuml_nonneg l2 (expm N) (fun x _ => expm_nonneg N x)).
  pose proof (exp_pos (M - N)). cbn [expm]. lra.
Qed.
Lemma is_max_unique l M N : is_max l M -> is_max l N -> M = N.
Proof. intros [A1 B1] [A2 B2]. apply B1 in A2. apply B2 in A1. lra. Qed.

Lemma max_or_masked l : Forall score l -> masked l \/ exists M, is_max l M.
Proof.
  induction 1 as [|x l Hx Hl IH]; [left; intros r []|]. destruct x as [r| | |]; try destruct Hx.
  - right. destruct IH as [IH|[M HM]].
    + exists r. apply (is_max_masked_r [Fin r] l); [|assumption]. split; [left; reflexivity|]. intros r' [E|[]]. inversion E. lra.
    + exists (Rmax r M). apply (is_max_app [Fin r] l); [|assumption]. split; [left; reflexivity|]. intros r' [E|[]]. inversion E. lra.
  - destruct IH as [IH|[M HM]].
    + left. intros r [E|Hr]; [discriminate|destruct (IH r Hr)].
    + right. exists M. apply (is_max_masked_l [NInf] l); [|assumption]. intros r [E|[]]. discriminate.
Qed.

(** state of the kernel after the scores [l] *)
Definition mse_inv (l : list XR) (st : XR * XR * XR) : Prop :=
  (masked l /\ st = (NInf, Fin 1, Fin 0)) \/
  (exists M, is_max l M /\ st = (Fin M, Fin (Rsuml l (expm M)), Fin 0)).

Lemma mse_step_inv l x st : score x -> mse_inv l st -> mse_inv (l ++ [x]) (mse_step x st).
Proof.
  intros Hx H. destruct x as [v| | |]; try destruct Hx.
  - assert (Hv : is_max [Fin v] v) by (split; [left; reflexivity|intros r [E|[]]; inversion E; lra]).
    assert (Ev : exp (v - v) = 1) by (rewrite Rminus_diag_eq by reflexivity; apply exp_0).
    destruct H as [[Hm ->]|(M & HM & ->)]; right.
    + exists v. split; [apply is_max_masked_l; assumption|]. cbn. rewrite Rsuml_app, (masked_sum l) by assumption.
      rewrite Rsuml_cons, Rsuml_nil. cbn. rewrite Ev. repeat f_equal; lra.
    + exists (Rmax M v). split; [apply is_max_app; assumption|]. unfold mse_step. cbn [o_isinf o_ltb Xops x_isinf x_ltb].
      rewrite Rsuml_app, Rsuml_cons, Rsuml_nil. cbn [expm].
      destruct (Rltb M v) eqn:E; [apply Rltb_true in E|apply Rltb_false in E].
      * rewrite Rmax_right by lra. cbn. rewrite <- (expm_shift M v l), Ev. repeat f_equal; lra.
      * rewrite Rmax_left by lra. cbn. repeat f_equal; lra.
  - assert (Hm0 : masked [NInf]) by (intros r [E|[]]; discriminate).
    destruct st as [[a b] c]. change (mse_step NInf (a, b, c)) with (a, b, c).
    destruct H as [[Hm E]|(M & HM & E)].
    + left. split; [apply masked_app; split; assumption|assumption].
    + right. exists M. split; [apply is_max_masked_r; assumption|]. rewrite Rsuml_app, Rsuml_cons, Rsuml_nil. cbn [expm].
      replace (Rsuml l (expm M) + (0 + 0)) with (Rsuml l (expm M)) by lra. assumption.
Qed.
Lemma mse_inv_ok n f : (0 < n)%Z -> (forall i, (0 <= i < n)%Z -> score (f i)) -> mse_inv (map f (zrange n)) (mse n f).
Proof.
  intros Hn Hf. unfold mse.
  assert (G : forall k, (0 <= k)%Z -> (k + 1 <= n)%Z ->
    mse_inv (map f (zrange (1 + k))) (fold_left (fun st l => mse_step (f (1 + l)%Z) st) (zrange k) (f 0%Z, o_one, o_zero))).
  { intros k0 Hk0. pattern k0. apply natlike_ind; [| |assumption].
    - intros _. change (zrange (1 + 0)) with [0%Z]. cbn. pose proof (Hf 0%Z ltac:(lia)) as H0.
      destruct (f 0%Z) as [v| | |]; try destruct H0.
      + right. exists v. split; [split; [left; reflexivity|intros r [E|[]]; inversion E; lra]|].
        cbn [map zrange]. rewrite Rsuml_cons, Rsuml_nil. cbn [expm]. rewrite (Rminus_diag_eq v v) by reflexivity. rewrite exp_0, Rplus_0_r. reflexivity.
      + left. split; [intros r [E|[]]; discriminate|reflexivity].
    - intros k Hk IH Hkn. unfold Z.succ in *. rewrite zrange_succ by assumption. rewrite fold_left_app. cbn [fold_left].
      replace (1 + (k + 1))%Z with ((1 + k) + 1)%Z by ring. rewrite zrange_succ by lia. rewrite map_app. cbn [map].
      apply mse_step_inv; [apply Hf; lia|apply IH; lia]. }
  specialize (G (n - 1)%Z ltac:(lia) ltac:(lia)). replace (1 + (n - 1))%Z with n in G by ring. exact G.
Qed.

Lemma Reqb_pos x : 0 < x -> Reqb x 0 = false.
Proof. intros H. apply Reqb_false. lra. Qed.

Lemma rep_app_masked p l0 l : rep p l0 -> masked l -> rep p (l0 ++ l).
Proof.
  intros [[H0 E]|(M & HM & E)] Hl.
  - left. split; [apply masked_app; split; assumption|assumption].
  - right. exists M. split; [apply is_max_masked_r; assumption|]. rewrite Rsuml_app, (masked_sum l) by assumption.
    rewrite Rplus_0_r. assumption.
Qed.

Lemma mse_upd_rep l0 l st p : mse_inv l st -> rep p l0 -> rep (mse_upd st p) (l0 ++ l).
Proof.
  intros [[Hm ->]|(M & HM & ->)] Hp.
  - destruct p as [a b]. cbn. apply rep_app_masked; assumption.
  - destruct p as [a b]. destruct Hp as [[H0 E]|(M0 & HM0 & E)].
    + cbn [snd] in E. subst b. cbn. rewrite (proj2 (Reqb_true 0 0) eq_refl). right. exists M.
      split; [apply is_max_masked_l; assumption|]. rewrite Rsuml_app, (masked_sum l0), Rplus_0_l by assumption. reflexivity.
    + inversion E; subst a b. unfold mse_upd. cbn [o_isinf Xops x_isinf o_eqb x_eqb o_zero o_ltb x_ltb].
      rewrite Reqb_pos by (eapply is_max_sum; eassumption). right. exists (Rmax M0 M).
      split; [apply is_max_app; assumption|]. rewrite Rsuml_app.
      destruct (Rltb M0 M) eqn:L; [apply Rltb_true in L|apply Rltb_false in L].
      * rewrite Rmax_right by lra. cbn. rewrite <- (expm_shift M0 M l0). f_equal; f_equal; lra.
      * rewrite Rmax_left by lra. cbn. rewrite <- (expm_shift M M0 l). f_equal; f_equal; lra.
Qed.
Lemma mse_upd_masked l st p : mse_inv l st -> masked l -> mse_upd st p = p.
Proof.
  intros [[_ ->]|(M & [HM _] & _)] Hm; [destruct p; reflexivity|destruct (Hm M HM)].
Qed.

(** accumulate_maxsumexp merges two representations *)
Lemma acc_mse_rep p q l1 l2 : rep p l1 -> rep q l2 -> rep (acc_mse q p) (l1 ++ l2).
Proof.
  intros Hp Hq. destruct p as [a b], q as [a' b']. unfold acc_mse. cbn [fst snd o_eqb Xops].
  destruct Hq as [[H2 E]|(M2 & HM2 & E)].
  - cbn [snd] in E. subst b'. cbn [x_eqb o_zero Xops]. rewrite (proj2 (Reqb_true 0 0) eq_refl). apply rep_app_masked; assumption.
  - inversion E; subst a' b'. cbn [x_eqb o_zero Xops]. rewrite (Reqb_pos (Rsuml l2 _)) by (eapply is_max_sum; eassumption).
    destruct Hp as [[H1 E1]|(M1 & HM1 & E1)].
    + cbn [snd] in E1. subst b. cbn [x_eqb o_zero Xops]. rewrite (proj2 (Reqb_true 0 0) eq_refl). right. exists M2.
      split; [apply is_max_masked_l; assumption|]. rewrite Rsuml_app, (masked_sum l1), Rplus_0_l by assumption. reflexivity.
    + inversion E1; subst a b. cbn [x_eqb o_zero Xops]. rewrite (Reqb_pos (Rsuml l1 _)) by (eapply is_max_sum; eassumption).
      right. exists (Rmax M1 M2). split; [apply is_max_app; assumption|]. rewrite Rsuml_app. cbn [o_ltb x_ltb Xops].
      destruct (Rltb M1 M2) eqn:L; [apply Rltb_true in L|apply Rltb_false in L].
      * rewrite Rmax_right by lra. cbn. rewrite (expm_shift M1 M2 l1). f_equal; f_equal; lra.
      * rewrite Rmax_left by lra. cbn. rewrite (expm_shift M2 M1 l2). reflexivity.
Qed.

Lemma rep_perm p l1 l2 : Permutation l1 l2 -> rep p l1 -> rep p l2.
Proof.
  intros HP. assert (HI : forall x, In x l1 <-> In x l2) by (intros x; split; apply Permutation_in; [assumption|symmetry; assumption]).
  intros [[H E]|(M & [A B] & E)].
  - left. split; [intros r Hr; apply (H r), HI, Hr|assumption].
  - right. exists M. split; [split; [apply HI, A|intros r Hr; apply B, HI, Hr]|]. rewrite <- (Rsuml_perm _ _ _ HP). assumption.
Qed.
Lemma rep_unique p q l M : is_max l M -> rep p l -> rep q l -> p = q.
Proof.
  intros HM Hp Hq.
  assert (G : forall p, rep p l -> p = (Fin M, Fin (Rsuml l (expm M)))).
  { intros p0 [[H _]|(N & HN & ->)]; [destruct HM as [HM _]; destruct (H M HM)|].
    rewrite (is_max_unique l N M HN HM). reflexivity. }
  rewrite (G p Hp), (G q Hq). reflexivity.
Qed.

(** folding over consecutive groups of scores *)
Lemma fold_rep (g : Z) (len : Z -> Z) (f : Z -> Z -> XR) p l0 : 
  (forall j, (0 <= j < g)%Z -> (0 < len j)%Z /\ forall i, (0 <= i < len j)%Z -> score (f j i)) -> rep p l0 ->
  rep (fold_left (fun v j => mse_upd (mse (len j) (f j)) v) (zrange g) p)
      (l0 ++ flat_map (fun j => map (f j) (zrange (len j))) (zrange g)) /\
  (masked (flat_map (fun j => map (f j) (zrange (len j))) (zrange g)) ->
   fold_left (fun v j => mse_upd (mse (len j) (f j)) v) (zrange g) p = p).
Proof.
  intros H Hp. assert (G : forall J, (forall j, In j J -> (0 <= j < g)%Z) -> forall p l0, rep p l0 -> 
    rep (fold_left (fun v j => mse_upd (mse (len j) (f j)) v) J p) (l0 ++ flat_map (fun j => map (f j) (zrange (len j))) J) /\
    (masked (flat_map (fun j => map (f j) (zrange (len j))) J) -> fold_left (fun v j => mse_upd (mse (len j) (f j)) v) J p = p)).
  { induction J as [|j J IH]; intros HJ p0 l1 H0; cbn [fold_left flat_map].
    - rewrite app_nil_r. auto.
    - destruct (H j (HJ j (or_introl eq_refl))) as [Hl Hs].
      pose proof (mse_inv_ok (len j) (f j) Hl Hs) as Hi.
      destruct (IH (fun x Hx => HJ x (or_intror Hx)) _ _ (mse_upd_rep l1 _ _ _ Hi H0)) as [R1 R2].
      split; [rewrite app_assoc; exact R1|]. intros Hm. apply masked_app in Hm as [Hm1 Hm2].
      rewrite R2 by assumption. eapply mse_upd_masked; eassumption. }
  apply G; [|assumption]. intros j Hj. apply zrange_In. assumption.
Qed.

(** ** softmax, logsumexp *)
Lemma sumexp_pos l M : is_max l M -> 0 < sumexp l.
Proof. apply is_max_sum. Qed.
Lemma smax_val a p l x : rep p l -> In x l -> score x -> smax (Fin a) p x = softmax_val a l x.
Proof.
  intros Hp Hx Hs. destruct x as [r| | |]; try destruct Hs; [|reflexivity].
  destruct Hp as [[H _]|(M & HM & ->)]; [destruct (H r Hx)|]. unfold smax. cbn [o_isinf Xops x_isinf negb fst snd].
  cbn [o_div o_mul o_exp o_sub Xops x_sub x_exp x_mul]. rewrite x_div_fin by (pose proof (is_max_sum l M M HM); lra).
  cbn [softmax_val]. f_equal. unfold sumexp. rewrite <- (expm_shift M 0 l).
  replace (r - M) with (r + - M) by lra. replace (M - 0) with M by lra. rewrite exp_plus, exp_Ropp.
  pose proof (is_max_sum l M M HM). pose proof (exp_pos M). field. lra.
Qed.
Lemma lse_val p l : rep p l -> Forall score l -> (masked l -> fst p = Fin 0) ->
  x_add (fst p) (x_log (snd p)) = x_log (Fin (sumexp l)).
Proof.
  intros [[H E]|(M & HM & ->)] Hs Hz.
  - rewrite E, (Hz H). unfold sumexp. rewrite masked_sum by assumption. cbn.
    destruct (Rltb 0 0) eqn:L; [apply Rltb_true in L; lra|]. rewrite (proj2 (Reqb_true 0 0) eq_refl). reflexivity.
  - cbn [fst snd]. pose proof (is_max_sum l M M HM). rewrite !x_log_fin; [|apply (sumexp_pos l M HM)|assumption]. cbn. f_equal.
    unfold sumexp. rewrite <- (expm_shift M 0 l). rewrite ln_mult by (auto; apply exp_pos). rewrite ln_exp. lra.
Qed.
Lemma softmax_nonneg a l x : 0 <= a -> exists p, softmax_val a l x = Fin p /\ 0 <= p.
Proof.
  intros Ha. destruct x as [r| | |]; cbn [softmax_val]; eexists; (split; [reflexivity|]); try lra.
  assert (0 <= sumexp l) by (apply Rsuml_nonneg; intros; apply expm_nonneg). pose proof (exp_pos r).
  destruct (Req_dec (sumexp l) 0) as [E|E].
  - unfold Rdiv. rewrite E, Rinv_0. lra.
  - apply Rmult_le_pos; [assumption|]. apply Rlt_le, Rdiv_lt_0_compat; lra.
Qed.
Definition fin_of (x : XR) : R := match x with Fin r => r | _ => 0 end.
Lemma softmax_sum a l M : is_max l M -> Rsuml l (fun x => fin_of (softmax_val a l x)) = a.
Proof.
  intros HM. pose proof (sumexp_pos l M HM) as HS.
  rewrite (Rsuml_ext l _ (fun x => (a / sumexp l) * expm 0 x)).
  - rewrite Rsuml_scal. fold (sumexp l). field. lra.
  - intros [r| | |] _; cbn; try lra. rewrite Rminus_0_r. field. lra.
Qed.
Lemma softmax_shift a l x c : softmax_val a (map (fun y => x_add y (Fin c)) l) (x_add x (Fin c)) = softmax_val a l x.
Proof.
  destruct x as [r| | |]; try reflexivity. cbn. f_equal. f_equal.
  assert (E : sumexp (map (fun y => x_add y (Fin c)) l) = exp c * sumexp l).
  { unfold sumexp. rewrite Rsuml_map, <- Rsuml_scal. apply Rsuml_ext. intros [y| | |] _; cbn; try lra.
    rewrite <- exp_plus. f_equal. lra. }
  rewrite E, exp_plus. pose proof (exp_pos c).
  destruct (Req_dec (sumexp l) 0) as [Z|Z]; [unfold Rdiv; rewrite Z, Rmult_0_r, Rinv_0; ring|]. field. lra.
Qed.

(** ** sumnorm *)
Definition sn_inv (S Q : R) (st : XR * XR * XR) : Prop :=
  exists sc q, st = (Fin S, Fin sc, Fin q) /\ 0 <= sc /\ 0 <= q /\ sc * sc * q = Q.
Lemma sn_step_inv S Q x st : sn_inv S Q st -> sn_inv (S + x) (Q + x * x) (sn_step (Fin x) st).
Proof.
  intros (sc & q & -> & H1 & H2 & H3). unfold sn_step. cbn [o_eqb Xops x_eqb o_zero].
  destruct (Reqb x 0) eqn:E; [apply Reqb_true in E|apply Reqb_false in E].
  - subst x. exists sc, q. rewrite !Rplus_0_r, Rmult_0_l, Rplus_0_r. auto.
  - cbn [o_add x_add o_abs x_abs o_ltb x_ltb Xops]. pose proof (Rabs_pos_lt x E) as Hp.
    assert (Ex : Rabs x * Rabs x = x * x) by (rewrite <- Rabs_mult; apply Rabs_right; nra).
    set (ab := Rabs x) in *.
    destruct (Rltb sc ab) eqn:L; [apply Rltb_true in L|apply Rltb_false in L].
    + change (o_div (Fin sc) (Fin ab)) with (x_div (Fin sc) (Fin ab)). rewrite x_div_fin by lra. cbn.
      eexists _, _. split; [reflexivity|]. split; [lra|].
      assert (0 <= sc / ab) by (apply Rmult_le_pos; [assumption|left; apply Rinv_0_lt_compat; assumption]).
      split; [assert (0 <= q * (sc / ab) * (sc / ab)) by (apply Rmult_le_pos; [apply Rmult_le_pos|]; assumption); lra|].
      rewrite <- Ex, <- H3. field. lra.
    + change (o_div (Fin ab) (Fin sc)) with (x_div (Fin ab) (Fin sc)). rewrite x_div_fin by lra. cbn.
      eexists _, _. split; [reflexivity|]. split; [lra|].
      pose proof (Rle_0_sqr (ab / sc)). unfold Rsqr in *. split; [lra|]. rewrite <- Ex, <- H3. field. lra.
Qed.
Lemma sn_ok n f S N : (0 <= n)%Z -> 0 <= N ->
  sn_inv (S + Rsum n f) (N * N + Rsum n (fun i => f i * f i)) (sn n (fun i => Fin (f i)) (Fin S, Fin N)).
Proof.
  intros Hn HN. unfold sn. cbn [fst snd]. pattern n. apply natlike_ind; [| |assumption].
  - rewrite !Rsum_neg by lia. exists N, 1. rewrite Rplus_0_r. split; [reflexivity|]. repeat split; lra.
  - intros k Hk IH. unfold Z.succ. rewrite zrange_succ by assumption. rewrite fold_left_app. cbn [fold_left].
    rewrite !Rsum_succ by assumption. rewrite <- !Rplus_assoc. apply sn_step_inv. assumption.
Qed.
Lemma sn_upd_ok S Q st : sn_inv S Q st -> sn_upd st = (Fin S, Fin (sqrt Q)).
Proof.
  intros (sc & q & -> & H1 & H2 & <-). unfold sn_upd. cbn [o_sqrt Xops]. rewrite x_sqrt_fin by assumption. cbn. f_equal. f_equal.
  rewrite sqrt_mult by nra. rewrite sqrt_square by assumption. reflexivity.
Qed.
Lemma fold_sn (len : Z -> Z) (f : Z -> Z -> R) g S N : (0 <= g)%Z -> 0 <= N -> (forall j, (0 <= j < g)%Z -> (0 <= len j)%Z) ->
  fold_left (fun v j => sn_upd (sn (len j) (fun l => Fin (f j l)) v)) (zrange g) (Fin S, Fin N) =
  (Fin (S + Rsum g (fun j => Rsum (len j) (f j))),
   Fin (sqrt (N * N + Rsum g (fun j => Rsum (len j) (fun l => f j l * f j l))))).
Proof.
  intros Hg HN Hl.
  assert (G : forall k, (0 <= k)%Z -> (k <= g)%Z -> 
     fold_left (fun v j => sn_upd (sn (len j) (fun l => Fin (f j l)) v)) (zrange k) (Fin S, Fin N) =
     (Fin (S + Rsum k (fun j => Rsum (len j) (f j))),
      Fin (sqrt (N * N + Rsum k (fun j => Rsum (len j) (fun l => f j l * f j l)))))).
  { intros k0 Hk0. pattern k0. apply natlike_ind; [| |assumption].
    - intros _. rewrite !Rsum_neg by lia. rewrite !Rplus_0_r, sqrt_square by assumption. reflexivity.
    - intros k Hk IH Hkg. unfold Z.succ in *. rewrite zrange_succ by assumption. rewrite fold_left_app, IH by lia. cbn [fold_left].
      rewrite !Rsum_succ by assumption.
      assert (Hq : forall j, 0 <= Rsum (len j) (fun l => f j l * f j l)) by (intros; apply Rsuml_nonneg; intros; apply Rle_0_sqr).
      assert (0 <= Rsum k (fun j => Rsum (len j) (fun l => f j l * f j l))) by (apply Rsuml_nonneg; auto).
      erewrite sn_upd_ok by (apply sn_ok; [apply Hl; lia|apply sqrt_pos]). rewrite sqrt_sqrt by nra.
      f_equal; f_equal; [ring|f_equal; ring]. }
  apply G; lia.
Qed.

(** ** normalize *)
(** mean and population variance of f 0 .. f (n-1) *)
Definition Rmean (n : Z) (f : Z -> R) : R := Rsum n f / IZR n.
Definition Rvar (n : Z) (f : Z -> R) : R := Rsum n (fun i => (f i - Rmean n f) * (f i - Rmean n f)) / IZR n.
Lemma Rsum_plus n f g : Rsum n (fun x => f x + g x) = Rsum n f + Rsum n g. Proof. apply Rsuml_plus. Qed.
Lemma Rsum_scal n c f : Rsum n (fun x => c * f x) = c * Rsum n f. Proof. apply Rsuml_scal. Qed.
Lemma Rvar_eq n f : (0 < n)%Z -> Rvar n f = Rsum n (fun i => f i * f i) / IZR n - Rmean n f * Rmean n f.
Proof.
  intros Hn. assert (0 < IZR n) by (apply IZR_lt; assumption). unfold Rvar.
  set (m := Rmean n f).
  rewrite (Rsum_ext n _ (fun i => f i * f i + ((-2 * m) * f i + m * m))) by (intros; ring).
  rewrite !Rsum_plus, Rsum_scal, Rsum_const by lia.
  assert (E : Rsum n f = m * IZR n) by (unfold m, Rmean; field; lra). rewrite E. field. lra.
Qed.
Lemma Rvar_nonneg n f : (0 < n)%Z -> 0 <= Rvar n f.
Proof.
  intros Hn. assert (0 < IZR n) by (apply IZR_lt; assumption). unfold Rvar, Rdiv. apply Rmult_le_pos; [|left; apply Rinv_0_lt_compat; assumption].
  apply Rsuml_nonneg. intros. apply Rle_0_sqr.
Qed.
Lemma Rltb_lt a b : a < b -> Rltb a b = true. Proof. apply Rltb_true. Qed.
Lemma Rltb_ge a b : b <= a -> Rltb a b = false. Proof. intros. apply Rltb_false. lra. Qed.

Lemma norm_dev_ok n f eps : (0 < n)%Z -> 0 < eps -> (exists i, (0 <= i < n)%Z /\ f i <> 0) ->
  norm_dev (Fin (1 / IZR n)) (Fin (sqrt (1 / IZR n))) (Fin (sqrt eps)) (Fin (Rsum n f)) (Fin (sqrt (Rsum n (fun i => f i * f i)))) =
  Fin (sqrt (Rvar n f + eps)).
Proof.
  intros Hn He (i0 & Hi0 & Hf0). assert (H0 : 0 < IZR n) by (apply IZR_lt; assumption).
  set (Q := Rsum n (fun i => f i * f i)).
  assert (HQ : 0 < Q).
  { assert (0 <= Q) by (apply Rsuml_nonneg; intros; apply Rle_0_sqr). destruct (Req_dec Q 0) as [E|E]; [|lra]. exfalso. apply Hf0.
    pose proof (Rsuml_0_inv (zrange n) (fun i => f i * f i) (fun x _ => Rle_0_sqr (f x)) E i0 ltac:(apply zrange_In; assumption)) as Z.
    cbn in Z. apply Rmult_integral in Z. tauto. }
  set (mean := Rsum n f * (1 / IZR n)). set (rms := sqrt Q * sqrt (1 / IZR n)).
  assert (Hin : 0 < 1 / IZR n) by (apply Rdiv_lt_0_compat; lra).
  assert (Hr : 0 < rms) by (apply Rmult_lt_0_compat; apply sqrt_lt_R0; assumption).
  assert (Hr2 : rms * rms = Q / IZR n).
  { unfold rms. replace (sqrt Q * sqrt (1 / IZR n) * (sqrt Q * sqrt (1 / IZR n))) with ((sqrt Q * sqrt Q) * (sqrt (1 / IZR n) * sqrt (1 / IZR n))) by ring.
    rewrite !sqrt_sqrt by lra. field. lra. }
  assert (Hv : Rvar n f = rms * rms - mean * mean).
  { rewrite Rvar_eq by assumption. fold Q. rewrite Hr2. unfold mean, Rmean. f_equal. field. lra. }
  pose proof (Rvar_nonneg n f Hn) as Hv0. rewrite Hv in *.
  set (t := Rabs mean / rms).
  assert (Ht0 : 0 <= t) by (apply Rmult_le_pos; [apply Rabs_pos|left; apply Rinv_0_lt_compat; assumption]).
  assert (Htm : t * rms = Rabs mean) by (unfold t; field; lra).
  assert (Hm2 : mean * mean = Rabs mean * Rabs mean) by (rewrite <- Rabs_mult; symmetry; apply Rabs_right; nra).
  rewrite Hm2, <- Htm in *. 
  pose proof (sqrt_lt_R0 eps He) as Hs. pose proof (sqrt_sqrt eps ltac:(lra)) as Hs2. set (re := sqrt eps) in *.
  unfold norm_dev. cbn [o_mul Xops x_mul o_abs x_abs o_div]. fold mean. rewrite x_div_fin by (fold rms; lra). fold rms. fold t.
  unfold o_geb. cbn [o_ltb o_eqb Xops x_ltb x_eqb o_one].
  assert (Ht1 : t <= 1) by (assert (t * t <= 1) by (apply (Rmult_le_reg_r (rms * rms)); nra); nra).
  assert (F : forall x, 0 <= x -> x * x = rms * rms - t * rms * (t * rms) + eps -> sqrt (rms * rms - t * rms * (t * rms) + eps) = x).
  { intros x Hx <-. apply sqrt_square. assumption. }
  destruct (Rltb 1 t) eqn:L; [apply Rltb_true in L; lra|]. cbn [orb].
  destruct (Reqb 1 t) eqn:L2; [apply Reqb_true in L2|apply Reqb_false in L2].
  { f_equal. symmetry. apply F; [lra|]. rewrite <- L2. lra. }
  change (o_div (Fin re) (Fin rms)) with (x_div (Fin re) (Fin rms)). change (o_div (Fin rms) (Fin re)) with (x_div (Fin rms) (Fin re)).
  rewrite !x_div_fin by lra.
  assert (Hq : 0 <= 1 - t * t) by nra.
  destruct (Rltb re rms) eqn:L3; [apply Rltb_true in L3|apply Rltb_false in L3]; cbn [x_sub o_sub Xops x_mul o_mul o_add x_add o_sqrt].
  - assert (P : 0 <= 1 - t * t + re / rms * (re / rms)) by (pose proof (Rle_0_sqr (re / rms)) as X; unfold Rsqr in X; lra).
    rewrite x_sqrt_fin by assumption. cbn [x_mul]. f_equal. symmetry. apply F; [apply Rmult_le_pos; [lra|apply sqrt_pos]|].
    pose proof (sqrt_sqrt _ P) as X. set (w := sqrt (1 - t * t + re / rms * (re / rms))) in *.
    replace (rms * w * (rms * w)) with (rms * rms * (w * w)) by ring. rewrite X, <- Hs2. field. lra.
  - assert (P : 0 <= (1 - t * t) * (rms / re * (rms / re)) + 1).
    { pose proof (Rle_0_sqr (rms / re)) as X; unfold Rsqr in X. pose proof (Rmult_le_pos _ _ Hq X). lra. }
    rewrite x_sqrt_fin by assumption. cbn [x_mul]. f_equal. symmetry. apply F; [apply Rmult_le_pos; [lra|apply sqrt_pos]|].
    pose proof (sqrt_sqrt _ P) as X. set (w := sqrt ((1 - t * t) * (rms / re * (rms / re)) + 1)) in *.
    replace (re * w * (re * w)) with (re * re * (w * w)) by ring. rewrite X, <- Hs2. field. lra.
Qed.
Lemma nrmz_ok n f eps ga be x : (0 < n)%Z -> 0 < eps -> (exists i, (0 <= i < n)%Z /\ f i <> 0) ->
  nrmz n (Fin eps) (Fin ga) (Fin be) (Fin (Rsum n f), Fin (sqrt (Rsum n (fun i => f i * f i)))) (Fin x) =
  Fin (ga * ((x - Rmean n f) / sqrt (Rvar n f + eps)) + be).
Proof.
  intros Hn He Hf. assert (H0 : 0 < IZR n) by (apply IZR_lt; assumption).
  assert (Hin : 0 < 1 / IZR n) by (apply Rdiv_lt_0_compat; lra).
  unfold nrmz. cbv zeta. cbn [fst snd]. cbn [o_one o_ofZ Xops o_div o_sqrt]. rewrite (x_div_fin 1) by lra. rewrite !x_sqrt_fin by lra.
  change Xops with Xops. rewrite norm_dev_ok by assumption. pose proof (Rvar_nonneg n f Hn).
  assert (0 < sqrt (Rvar n f + eps)) by (apply sqrt_lt_R0; lra).
  cbn [o_mul o_sub Xops x_mul x_sub]. rewrite x_div_fin by lra. cbn. f_equal. unfold Rmean. field. lra.
Qed.
(** all-zero slice: 0/0 *)
Lemma nrmz_zero n eps ga be x : (0 < n)%Z -> 0 < eps ->
  nrmz n (Fin eps) (Fin ga) (Fin be) (Fin 0, Fin 0) (Fin x) = NaN.
Proof.
  intros Hn He. assert (H0 : 0 < IZR n) by (apply IZR_lt; assumption).
  assert (Hin : 0 < 1 / IZR n) by (apply Rdiv_lt_0_compat; lra).
  unfold nrmz. cbv zeta. cbn [fst snd]. cbn [o_one o_ofZ Xops o_div o_sqrt]. rewrite (x_div_fin 1) by lra. rewrite !x_sqrt_fin by lra.
  unfold norm_dev. cbn [o_mul Xops x_mul o_abs x_abs]. rewrite !Rmult_0_l, Rabs_R0. cbn [o_div Xops x_div].
  rewrite !(proj2 (Reqb_true 0 0) eq_refl). unfold o_geb. cbn [o_ltb Xops x_ltb o_eqb x_eqb o_one orb].
  rewrite Rltb_ge by (apply sqrt_pos). reflexivity.
Qed.
