(** * Tensors of pairs: first dimension 2, in one tile along it *)
From Verif Require Import Base Spec Geometry Traits TraitsProofs Runtime Ops TensorSem ElemGeneric OneOut
  Axis AccRuns Loops SliceOps SliceGeo SliceProofs SoftmaxOps.

(** [P] holds pairs: shape 2 x ..., with the pairs never split between tiles. *)
Definition pairt (P : tensor) : Prop := exists sh ba, t_shape P = 2 :: sh /\ t_base P = 2 :: ba.
(** [P] holds one pair for each slice of [big] along [axis]. *)
Definition pair_match (big P : tensor) (axis : Z) : Prop :=
  0 <= axis < zlen (t_shape big) /\
  t_shape P = 2 :: del axis (t_shape big) /\ t_base P = 2 :: del axis (t_base big).

(** The same tiles seen as an array of pairs. *)
Definition sq (P : tensor) : tensor :=
  let sh := tl (t_shape P) in let ba := tl (t_base P) in
  mkTensor (tn_of sh ba)
    (ztab (prodZ (gridZ sh ba)) (fun i => tt_of (tshape sh ba (unoff (gridZ sh ba) i))))
    (tile_handles P) (tile_distr P).

Lemma pair_match_pairt big P axis : pair_match big P axis -> pairt P.
Proof. intros (_ & E1 & E2). eexists _, _. split; eassumption. Qed.

Section G.
Variable (P : tensor).
Hypothesis (HP : wft P) (Hp : pairt P).

Lemma sq_shape : t_shape P = 2 :: t_shape (sq P).
Proof. destruct Hp as (sh & ba & E & _). unfold sq, t_shape at 2, tn_shape. cbn [tr]. rewrite E. reflexivity. Qed.
Lemma sq_base : t_base P = 2 :: t_base (sq P).
Proof. destruct Hp as (sh & ba & _ & E). unfold sq, t_base at 2. cbn [tr]. rewrite E. reflexivity. Qed.
Lemma sq_grid : gridZ (t_shape P) (t_base P) = 1 :: gridZ (t_shape (sq P)) (t_base (sq P)).
Proof. rewrite sq_shape, sq_base. reflexivity. Qed.
Lemma sq_ntiles : ntiles (sq P) = ntiles P.
Proof. unfold ntiles. rewrite sq_grid. cbn [prodZ]. lia. Qed.
Lemma sq_th i : th (sq P) i = th P i.
Proof. reflexivity. Qed.
Lemma sq_unoff i : unoff (gridZ (t_shape P) (t_base P)) i = 0 :: unoff (gridZ (t_shape (sq P)) (t_base (sq P))) i.
Proof. rewrite sq_grid. cbn [unoff]. rewrite Z.mod_1_r, Z.div_1_r. reflexivity. Qed.
Lemma sq_tsh i : tsh P i = 2 :: tsh (sq P) i.
Proof. unfold tsh. rewrite sq_unoff, sq_shape, sq_base. cbn [tshape]. f_equal. Qed.
Lemma sq_tsz i : tsz P i = 2 * tsz (sq P) i.
Proof. unfold tsz. rewrite sq_tsh. reflexivity. Qed.
Lemma sq_wft : wft (sq P).
Proof.
  destruct HP as [H1 H2 H3 H4 H5 H6 H7]. rewrite sq_shape, sq_base in *.
  inversion H2; subst. inversion H3; subst. constructor; try assumption.
  - rewrite !zlen_cons in H1. lia.
  - reflexivity.
  - reflexivity.
  - rewrite sq_ntiles. exact H6.
Qed.
Lemma sq_inb c idx : 0 <= c < 2 -> inb (t_shape (sq P)) idx -> inb (t_shape P) (c :: idx).
Proof. intros Hc Hi. rewrite sq_shape. constructor; assumption. Qed.
Lemma sq_etile c idx : 0 <= c < 2 -> etile P (c :: idx) = etile (sq P) idx.
Proof.
  intros Hc. unfold etile. rewrite sq_grid, sq_base. cbn [tile_of map2 off].
  rewrite (Z.div_small c 2) by assumption. unfold tile_of. lia.
Qed.
Lemma sq_eoff c idx : 0 <= c < 2 -> inb (t_shape (sq P)) idx -> eoff P (c :: idx) = c + 2 * eoff (sq P) idx.
Proof.
  intros Hc Hi. unfold eoff. rewrite <- !tsh_etile by (auto using sq_wft, sq_inb).
  rewrite sq_etile, sq_tsh, sq_base by assumption. cbn [in_tile map2 off]. rewrite (Z.mod_small c 2) by assumption. reflexivity.
Qed.
Lemma inb_pair idx : inb (t_shape P) idx -> exists c idx', idx = c :: idx' /\ (c = 0 \/ c = 1) /\ inb (t_shape (sq P)) idx'.
Proof. rewrite sq_shape. intros H. inversion H as [|s i sh idx' Hc Hi]; subst. exists i, idx'. split; [reflexivity|]. split; [lia|assumption]. Qed.
End G.

Lemma sq_match big P axis : pair_match big P axis -> slice_match big (sq P) axis.
Proof.
  intros Hm. pose proof (pair_match_pairt _ _ _ Hm) as Hp. destruct Hm as (Ha & E1 & E2).
  rewrite (sq_shape P Hp) in E1. rewrite (sq_base P Hp) in E2. inversion E1. inversion E2. repeat split; try lia; reflexivity || assumption.
Qed.

(** *** argument checks *)
Lemma pair_check_checks big P axis : wft big -> wft P -> checks (pair_match big P axis) (pair_check big P axis).
Proof.
  intros Hb Hs. unfold pair_check. rewrite !t_ndim_eq by assumption.
  set (n := zlen (t_shape big)). set (n' := zlen (t_shape P)).
  pose proof (wf_len _ Hb) as Lb. pose proof (wf_len _ Hs) as Ls.
  set (P1 := forall i, 0 <= i < axis -> zn (t_shape big) i = zn (t_shape P) (i + 1) /\ zn (t_base big) i = zn (t_base P) (i + 1)).
  set (P2 := forall i, axis + 1 <= i < n -> zn (t_shape big) i = zn (t_shape P) i /\ zn (t_base big) i = zn (t_base P) i).
  apply (checks_iff (n = n' /\ n' <> 0 /\ 0 <= axis /\ axis < n /\ zn (t_shape P) 0 = 2 /\ zn (t_base P) 0 = 2 /\ P1 /\ P2 /\ True)).
  { unfold pair_match. fold n. split.
    - intros (E & H0 & H1 & H2 & S0 & B0 & HP1 & HP2 & _). split; [lia|].
      assert (D : forall (l k : list Z), zlen l = n -> zlen k = n -> zn k 0 = 2 ->
        (forall i, 0 <= i < axis -> zn l i = zn k (i + 1)) -> (forall i, axis + 1 <= i < n -> zn l i = zn k i) -> k = 2 :: del axis l).
      { intros l k Hl Hk Hz A B. destruct k as [|x k]; [change (zlen (@nil Z)) with 0 in Hk; lia|].
        change (x = 2) in Hz. rewrite Hz in *. f_equal. rewrite zlen_cons in Hk. apply del_eq; [lia|]. split; [lia|]. split.
        - intros i Hi. rewrite A by lia. rewrite zn_consS by lia. f_equal. lia.
        - intros i Hi. rewrite B by lia. rewrite zn_consS by lia. reflexivity. }
      split; apply D; try (fold n n'; lia); intros i Hi; try apply HP1; try apply HP2; assumption.
    - intros (H1 & E1 & E2).
      assert (n = n'). { unfold n, n'. rewrite E1, zlen_cons, zlen_del; lia. }
      split; [assumption|]. split; [lia|]. split; [lia|]. split; [lia|]. rewrite E1, E2. split; [reflexivity|]. split; [reflexivity|].
      split; [|split; [|exact I]]; intros i Hi; rewrite E1, E2, !zn_consS by lia; rewrite !zn_del by (fold n; lia).
      + rewrite Z.add_simpl_r. destruct (Z.ltb_spec i axis); [auto|lia].
      + destruct (Z.ltb_spec (i - 1) axis); [lia|]. rewrite Z.sub_add. auto. }
  apply checks_eq. intros E. apply checks_if; [intros X; apply Z.eqb_eq in X; lia|intros X; apply Z.eqb_neq in X; lia|]. intros H0.
  apply checks_if; [intros X; apply Z.ltb_lt in X; lia|intros X; apply Z.ltb_ge in X; lia|]. intros H1.
  apply checks_if; [rewrite Z.geb_leb; intros X; apply Z.leb_le in X; lia|rewrite Z.geb_leb; intros X; apply Z.leb_gt in X; lia|].
  intros H2. pose proof (zlen_nonneg (t_shape P)) as Hn. rewrite rd_ok' by lia. apply checks_eq. intros S0.
  rewrite rd_ok' by lia. apply checks_eq. intros B0.
  apply checks_seq.
  { apply checks_for. intros i Hi. apply check_dim_checks; auto; fold n n'; lia. }
  intros HP1. apply checks_seq.
  { apply checks_for. intros i Hi. apply check_dim_checks; auto; fold n n'; lia. }
  intros _. apply checks_ok.
Qed.

Lemma bind_cong2 {A B} (r r' : res A) (f g : A -> res B) : r = r' -> (forall x, f x = g x) -> bind r f = bind r' g.
Proof. intros -> H. destruct r'; [apply H|reflexivity|reflexivity]. Qed.
Lemma pair_index_ok big axis l : wft big -> 0 <= axis < zlen (t_shape big) -> zlen l = zlen (t_shape big) - 1 ->
  pair_index big axis (0 :: l) = Ok (ins axis 0 l).
Proof.
  intros Hb Ha Hl. rewrite <- (slice_index_ok big axis l Hb Ha Hl). unfold pair_index, slice_index.
  rewrite t_ndim_eq by assumption. apply bind_cong2.
  - apply for_ext. intros i s Hi. rewrite !rd_ok' by (rewrite ?zlen_cons; lia). rewrite zn_consS by lia. rewrite Z.add_simpl_r. reflexivity.
  - intros v. apply for_ext. intros i s Hi. rewrite !rd_ok' by (rewrite ?zlen_cons; lia). rewrite zn_consS by lia. reflexivity.
Qed.

(** *** Buffers of pairs *)
Section Pairs.
Context {T : Type} {DT : Dflt T}.
Definition pr (d : list T) (c : Z) : T * T := (zn d (2 * c), zn d (2 * c + 1)).
Definition ptab (n : Z) (f : Z -> T * T) : list T :=
  ztab (2 * n) (fun o => if Z.even o then fst (f (o / 2)) else snd (f (o / 2))).
Lemma zlen_ptab n f : 0 <= n -> zlen (ptab n f) = 2 * n.
Proof. intros. apply zlen_ztab. lia. Qed.
Lemma pr_ptab n f c : 0 <= c < n -> pr (ptab n f) c = f c.
Proof.
  intros Hc. unfold pr, ptab. rewrite !zn_ztab by lia.
  replace (Z.even (2 * c)) with true by (symmetry; rewrite Z.even_mul; reflexivity).
  replace (Z.even (2 * c + 1)) with false by (symmetry; rewrite Z.even_add, Z.even_mul; reflexivity).
  replace (2 * c / 2) with c by (rewrite Z.mul_comm, Z.div_mul; lia).
  replace ((2 * c + 1) / 2) with c. 2:{ symmetry. replace (2 * c + 1) with (c * 2 + 1) by ring. rewrite Z.div_add_l by lia. change (1 / 2) with 0. lia. }
  destruct (f c); reflexivity.
Qed.
Lemma pair_ext n (d d' : list T) : zlen d = 2 * n -> zlen d' = 2 * n -> (forall c, 0 <= c < n -> pr d c = pr d' c) -> d = d'.
Proof.
  intros H1 H2 H. apply list_ext; [lia|]. intros i Hi.
  pose proof (Z.div_mod i 2 ltac:(lia)) as E. pose proof (Z.mod_pos_bound i 2 ltac:(lia)) as B.
  assert (Hc : 0 <= i / 2 < n) by (split; [apply Z.div_pos; lia|apply Z.div_lt_upper_bound; lia]).
  specialize (H _ Hc). unfold pr in H. inversion H as [[H3 H4]].
  assert (i mod 2 = 0 \/ i mod 2 = 1) as [X|X] by lia; rewrite X in E.
  - rewrite Z.add_0_r in E. rewrite E. assumption.
  - rewrite E. assumption.
Qed.
(** a loop updating pair after pair *)
Lemma pair_nest m n (B : Z -> Z -> list T -> res (list T)) (G : Z -> Z -> T * T -> T * T) dst :
  0 < m -> 0 < n -> zlen dst = 2 * (m * n) ->
  (forall i2 i1 d, 0 <= i2 < n -> 0 <= i1 < m -> zlen d = 2 * (m * n) -> 0 <= i1 + m * i2 < m * n ->
     exists d', B i2 i1 d = Ok d' /\ zlen d' = zlen d /\
       (pr d' (i1 + m * i2) = G i1 i2 (pr d (i1 + m * i2))) /\
       (forall i, 0 <= i < zlen d -> i <> 2 * (i1 + m * i2) -> i <> 2 * (i1 + m * i2) + 1 -> zn d' i = zn d i)) ->
  for_ 0 n (fun i2 => for_ 0 m (fun i1 d => B i2 i1 d)) dst
  = Ok (ptab (m * n) (fun c => G (cz [m; n] 0 c) (cz [m; n] 1 c) (pr dst c))).
Proof.
  intros Hm Hn Hd HB.
  set (G' := fun c => G (cz [m; n] 0 c) (cz [m; n] 1 c) (pr dst c)).
  set (Inv := fun k (d : list T) => zlen d = 2 * (m * n) /\ forall c, 0 <= c < m * n -> pr d c = if c <? k then G' c else pr dst c).
  assert (Inner : forall i2 d, 0 <= i2 < n -> Inv (m * i2) d ->
    exists d', for_ 0 m (fun i1 d => B i2 i1 d) d = Ok d' /\ Inv (m * (i2 + 1)) d').
  { intros i2 d Hi2 HI.
    destruct (for_inv (fun k d => Inv (k + m * i2) d) 0 m (fun i1 d => B i2 i1 d) d) as (d' & E & HI').
    - lia.
    - exact HI.
    - intros i1 d1 Hi1 [Hl Hz]. assert (Hb : 0 <= i1 + m * i2 < m * n) by nia.
      destruct (HB i2 i1 d1 Hi2 Hi1 Hl Hb) as (d' & E & El & Ec & Eo). exists d'. split; [assumption|].
      split; [lia|]. intros c Hc. destruct (Z.ltb_spec c (i1 + 1 + m * i2)) as [L|L].
      + destruct (Z.eq_dec c (i1 + m * i2)) as [Q|Q].
        * rewrite Q, Ec, Hz by assumption. destruct (Z.ltb_spec (i1 + m * i2) (i1 + m * i2)); [lia|].
          unfold G'. destruct (cz2 m n i1 i2 Hi1 Hi2) as (C0 & C1 & _). rewrite C0, C1. reflexivity.
        * transitivity (pr d1 c); [unfold pr; rewrite !Eo by lia; reflexivity|]. rewrite Hz by assumption.
          destruct (Z.ltb_spec c (i1 + m * i2)); [reflexivity|lia].
      + transitivity (pr d1 c); [unfold pr; rewrite !Eo by lia; reflexivity|]. rewrite Hz by assumption.
        destruct (Z.ltb_spec c (i1 + m * i2)); [lia|reflexivity].
    - exists d'. split; [assumption|]. replace (m * (i2 + 1)) with (m + m * i2) by ring. exact HI'. }
  destruct (for_inv (fun k d => Inv (m * k) d) 0 n (fun i2 => for_ 0 m (fun i1 d => B i2 i1 d)) dst) as (d' & E & Hl & Hz).
  - lia.
  - split; [assumption|]. intros c Hc. destruct (Z.ltb_spec c (m * 0)); [lia|reflexivity].
  - intros i2 d Hi HI. apply Inner; assumption.
  - rewrite E. f_equal. apply (pair_ext (m * n)); [assumption|apply zlen_ptab; nia|].
    intros c Hc. rewrite Hz, pr_ptab by assumption. destruct (Z.ltb_spec c (m * n)); [reflexivity|lia].
Qed.
End Pairs.
