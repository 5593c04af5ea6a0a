(** * Proofs for the element-wise operations *)
From Verif Require Import Base Spec Geometry Traits TraitsProofs Runtime Ops TensorSem ElemGeneric OneOut
  KernelsElem ElemOps.

Section P.
Context {T : Type} {O : Ops T}.

Lemma wr_same (l : list T) i : 0 <= i < zlen l -> wr l i (zn l i) = Ok l.
Proof.
  intros Hi. destruct (wr_ok l i (zn l i) Hi) as (l' & E & Hl & Hz). rewrite E. f_equal.
  apply list_ext; [assumption|]. intros j Hj. rewrite Hz by lia. destruct (Z.eqb_spec j i); congruence.
Qed.

Lemma tiles1_ok (A : tensor) (sub : Z -> handle -> task T) : wft A ->
  tiles1 A sub = Ok (ztab (ntiles A) (fun i => sub (tsz A i) (th A i))).
Proof.
  intros H. unfold tiles1. rewrite t_ntiles_eq by assumption. apply for_tasks.
  intros i acc Hi. rewrite get_tile_handle_ok by assumption. bnd.
  rewrite get_tile_traits_ok by assumption. bnd. reflexivity.
Qed.

Lemma tiles2_ok (G A B : tensor) (sub : Z -> handle -> handle -> task T) : wft A -> wft B -> wft G ->
  t_shape A = t_shape B -> t_base A = t_base B -> t_shape G = t_shape B -> t_base G = t_base B ->
  tiles2 G A B sub = Ok (ztab (ntiles B) (fun i => sub (tsz B i) (th A i) (th B i))).
Proof.
  intros HA HB HG E1 E2 E3 E4. unfold tiles2. rewrite t_ntiles_eq by assumption.
  rewrite (ntiles_ext A B) by assumption. apply for_tasks.
  intros i acc Hi. rewrite get_tile_handle_ok by (auto; rewrite (ntiles_ext A B); assumption). bnd.
  rewrite get_tile_handle_ok by assumption. bnd.
  rewrite get_tile_traits_ok by (auto; rewrite (ntiles_ext G B); assumption). bnd.
  rewrite <- (tsz_ext G B) by assumption. reflexivity.
Qed.

Lemma tiles3_ok (G A B C : tensor) (sub : Z -> handle -> handle -> handle -> task T) :
  wft A -> wft B -> wft C -> wft G ->
  t_shape A = t_shape C -> t_base A = t_base C -> t_shape B = t_shape C -> t_base B = t_base C ->
  t_shape G = t_shape C -> t_base G = t_base C ->
  tiles3 G A B C sub = Ok (ztab (ntiles C) (fun i => sub (tsz C i) (th A i) (th B i) (th C i))).
Proof.
  intros HA HB HC HG E1 E2 E3 E4 E5 E6. unfold tiles3. rewrite t_ntiles_eq by assumption.
  rewrite (ntiles_ext G C) by assumption. apply for_tasks.
  intros i acc Hi. rewrite get_tile_handle_ok by (auto; rewrite (ntiles_ext A C); assumption). bnd.
  rewrite get_tile_handle_ok by (auto; rewrite (ntiles_ext B C); assumption). bnd.
  rewrite get_tile_handle_ok by assumption. bnd.
  rewrite get_tile_traits_ok by (auto; rewrite (ntiles_ext G C); assumption). bnd.
  rewrite <- (tsz_ext G C) by assumption. reflexivity.
Qed.

(** Argument checks. *)
Lemma list_eqb_true (a b : list Z) : a = b -> list_eqb Z.eqb a b = true.
Proof. apply list_eqb_Z. Qed.
Lemma list_eqb_false (a b : list Z) : a <> b -> list_eqb Z.eqb a b = false.
Proof. intros H. destruct (list_eqb Z.eqb a b) eqn:E; [|reflexivity]. apply list_eqb_Z in E. contradiction. Qed.

Lemma check_same_ok {X} a b (k : res X) : t_shape a = t_shape b -> t_base a = t_base b -> check_same a b k = k.
Proof. intros E1 E2. unfold check_same, throw_if. rewrite !list_eqb_true by assumption. reflexivity. Qed.

Lemma check_same_bad {X} a b (k : res X) : t_shape a <> t_shape b \/ t_base a <> t_base b -> throws (check_same a b k).
Proof.
  intros H. unfold check_same, throw_if, throws.
  destruct (list_eqb Z.eqb (t_shape a) (t_shape b)) eqn:E1; simpl; [|eauto].
  destruct (list_eqb Z.eqb (t_base a) (t_base b)) eqn:E2; simpl; [|eauto].
  apply list_eqb_Z in E1, E2. tauto.
Qed.

Lemma check_loop_ok {X} d s (k : res X) : wft d -> wft s -> t_shape d = t_shape s -> t_base d = t_base s ->
  check_loop d s k = k.
Proof.
  intros Hd Hs E1 E2. unfold check_loop, throw_if. rewrite !t_ndim_eq by assumption.
  rewrite <- E1, Z.eqb_refl. simpl negb. cbv iota.
  destruct (for_inv (fun _ (_ : unit) => True) 0 (zlen (t_shape d)) (fun i _ =>
    a <- rd (t_shape d) i ;; b <- rd (t_shape d) i ;;
    (if negb (a =? b) then Throw "dst.shape[i] != src.shape[i]" else
    a <- rd (t_base d) i ;; b <- rd (t_base s) i ;;
    (if negb (a =? b) then Throw "dst.basetile_shape[i] != src.basetile_shape[i]" else
    Ok tt))) tt) as (u & E & _); auto using zlen_nonneg.
  - intros i u Hi _. exists tt. split; [|auto]. rewrite <- E2.
    pose proof (wf_len _ Hd). rds. rewrite Z.eqb_refl. simpl negb. cbv iota.
    rds. rewrite Z.eqb_refl. reflexivity.
  - rewrite E. bnd. reflexivity.
Qed.

(** A loop of checks throws as soon as one of them fails. *)
Lemma for_throws {S} lo hi (body : Z -> S -> res S) s i0 :
  lo <= i0 < hi ->
  (forall i s, lo <= i < hi -> (exists s', body i s = Ok s') \/ throws (body i s)) ->
  (forall s, throws (body i0 s)) -> throws (for_ lo hi body s).
Proof.
  intros Hi Hb H0. unfold for_.
  assert (G : forall n lo' s, lo <= lo' -> lo' + Z.of_nat n = hi -> lo' <= i0 -> throws (for_nat n lo' body s)).
  { induction n; intros lo' s1 Hl Hn Hi'; [lia|]. simpl.
    destruct (Z.eq_dec lo' i0) as [->|Hne].
    - destruct (H0 s1) as (m & ->). exists m. reflexivity.
    - destruct (Hb lo' s1) as [(s' & ->)|(m & ->)]; [lia| |exists m; reflexivity].
      simpl. apply IHn; lia. }
  apply G; lia.
Qed.

Lemma list_neq_at (a b : list Z) : zlen a = zlen b -> a <> b -> exists i, 0 <= i < zlen a /\ zn a i <> zn b i.
Proof.
  revert b; induction a as [|x a IH]; destruct b as [|y b]; intros Hl Hn.
  - contradiction.
  - rewrite zlen_cons, zlen_nil in Hl. pose proof (zlen_nonneg b). lia.
  - rewrite zlen_cons, zlen_nil in Hl. pose proof (zlen_nonneg a). lia.
  - rewrite !zlen_cons in *. destruct (Z.eq_dec x y) as [->|Hxy].
    + destruct (IH b) as (i & Hi & Hne); [lia|congruence|]. exists (i + 1). split; [lia|].
      unfold zn in *. replace (Z.to_nat (i + 1)) with (S (Z.to_nat i)) by lia. exact Hne.
    + exists 0. pose proof (zlen_nonneg a). split; [lia|]. exact Hxy.
Qed.

Lemma check_loop_bad {X} d s (k : res X) : wft d -> wft s -> t_shape d <> t_shape s \/ t_base d <> t_base s ->
  throws (check_loop d s k).
Proof.
  intros Hd Hs H. unfold check_loop, throw_if. rewrite !t_ndim_eq by assumption.
  destruct (Z.eqb_spec (zlen (t_shape d)) (zlen (t_shape s))) as [El|]; simpl negb; cbv iota; [|eexists; reflexivity].
  pose proof (wf_len _ Hd). pose proof (wf_len _ Hs).
  assert (Hex : exists i, 0 <= i < zlen (t_shape d) /\ (zn (t_shape d) i <> zn (t_shape s) i \/ zn (t_base d) i <> zn (t_base s) i)).
  { destruct H as [H|H]; apply list_neq_at in H as (i & Hi & Hn); try lia; exists i; split; auto; lia. }
  destruct Hex as (i & Hi & Hn).
  edestruct (for_throws 0 (zlen (t_shape d)) (fun i _ =>
    a <- rd (t_shape d) i ;; b <- rd (t_shape s) i ;;
    (if negb (a =? b) then Throw "dst.shape[i] != src.shape[i]" else
    a <- rd (t_base d) i ;; b <- rd (t_base s) i ;;
    (if negb (a =? b) then Throw "dst.basetile_shape[i] != src.basetile_shape[i]" else
    Ok tt))) tt i Hi) as (m & E); [| |rewrite E; exists m; reflexivity].
  - intros j u Hj. rds. destruct (zn (t_shape d) j =? zn (t_shape s) j); simpl negb; cbv iota; [|right; eexists; reflexivity].
    rds. destruct (zn (t_base d) j =? zn (t_base s) j); simpl negb; cbv iota; [left|right]; eexists; reflexivity.
  - intros u. rds. destruct (Z.eqb_spec (zn (t_shape d) i) (zn (t_shape s) i)); simpl negb; cbv iota; [|eexists; reflexivity].
    rds. destruct (Z.eqb_spec (zn (t_base d) i) (zn (t_base s) i)); simpl negb; cbv iota; [tauto|eexists; reflexivity].
Qed.

Lemma prodZ_firstn_S (l : list Z) n : (n < List.length l)%nat ->
  prodZ (firstn (S n) l) = prodZ (firstn n l) * nth n l dflt.
Proof.
  revert n; induction l as [|x l IH]; intros n Hn; simpl in Hn; [lia|].
  destruct n; simpl; [lia|]. simpl in IH. rewrite IH by lia. ring.
Qed.

(** matrix_shape determines the shape (extents are positive). *)
Lemma ms_eqb_spec a b : wft a -> wft b -> ms_eqb a b = true <-> t_shape a = t_shape b.
Proof.
  intros Ha Hb.
  assert (E : ms_eqb a b = true <-> tt_ms (tn_tile (tr a)) = tt_ms (tn_tile (tr b))).
  { unfold ms_eqb. generalize (tt_ms (tn_tile (tr a))), (tt_ms (tn_tile (tr b))).
    intros l l0. revert l0. induction l as [|[x y] l IH]; destruct l0 as [|[x' y'] l0]; simpl; split; intros E; try discriminate; auto.
    - apply andb_true_iff in E as [E1 E2]. apply andb_true_iff in E1 as [E0 E1].
      apply Z.eqb_eq in E0, E1. apply IH in E2. congruence.
    - inversion E; subst. rewrite !Z.eqb_refl. simpl. apply IH. reflexivity. }
  rewrite E. clear E. rewrite (wf_tr _ Ha), (wf_tr _ Hb). unfold tn_of; cbn [tn_tile]. split.
  - intros E. pose proof (wf_ps _ Ha) as Pa. pose proof (wf_ps _ Hb) as Pb.
    revert E Pa Pb. generalize (t_shape a), (t_shape b). clear. intros l1 l2 E P1 P2.
    cbn [tt_of tt_ms] in E.
    assert (Hl : zlen l1 = zlen l2).
    { pose proof (f_equal zlen E) as E'. pose proof (zlen_nonneg l1). pose proof (zlen_nonneg l2).
      rewrite !zlen_ztab in E' by lia. lia. }
    assert (Hp : forall i, 0 <= i <= zlen l1 -> prodZ (firstn (Z.to_nat i) l1) = prodZ (firstn (Z.to_nat i) l2)).
    { intros i Hi. pose proof (f_equal (fun l => fst (zn l i)) E) as E'. cbv beta in E'.
      rewrite !zn_ztab in E' by lia. exact E'. }
    apply list_ext; [assumption|]. intros i Hi.
    pose proof (Hp i ltac:(lia)) as Hi1. pose proof (Hp (i + 1) ltac:(lia)) as Hi2.
    replace (Z.to_nat (i + 1)) with (S (Z.to_nat i)) in Hi2 by lia.
    rewrite !prodZ_firstn_S in Hi2 by (unfold zlen in *; lia). rewrite Hi1 in Hi2.
    assert (Hpp : 0 < prodZ (firstn (Z.to_nat i) l2)).
    { apply prodZ_pos. clear - P2. rewrite <- (firstn_skipn (Z.to_nat i) l2) in P2. apply Forall_app in P2. apply P2. }
    unfold zn. clear - Hpp Hi2. nia.
  - intros ->. reflexivity.
Qed.
(** ** Generic results for 1, 2 and 3 operands *)
Theorem ew1 A m (f : T -> T) body s r :
  wft A -> stored KF s A -> m = MW \/ m = MRW -> (m = MW -> forall x y, f x = f y) ->
  (forall n d, 0 < n -> zlen d = n -> body n [BF d] = Ok [BF (ztab n (fun i => f (zn d i)))]) ->
  r = Ok (ztab (ntiles A) (fun i => mkTask [(th A i, m)] (body (tsz A i)))) ->
  runs r s (fun s' => (forall idx, inb (t_shape A) idx -> elem s' A idx = f (elem s A idx)) /\ frame [A] s s').
Proof.
  intros Hwf Hst Hm Hmw Hb ->. eexists. split; [reflexivity|].
  set (ps := [(A, m, fun v : list T => f (nth 0 v o_zero))] : list operand).
  assert (H1 : forall p, In p ps -> wft (pt p) /\ t_shape (pt p) = t_shape A /\ t_base (pt p) = t_base A).
  { intros p [<-|[]]. auto. }
  assert (H2 : forall p, In p ps -> stored KF s (pt p)) by (intros p [<-|[]]; assumption).
  assert (H3 : forall p, In p ps -> pm p = MR \/ pm p = MW \/ pm p = MRW).
  { intros p [<-|[]]. cbn. destruct Hm; auto. }
  assert (H4 : ForallOrdPairs (fun p q => writes (pm p) || writes (pm q) = true -> disj (pt p) (pt q)) ps)
    by (repeat constructor).
  assert (Hw : writes m = true) by (destruct Hm; subst; reflexivity).
  assert (H5 : forall n ls, 0 < n -> List.length ls = List.length ps -> Forall (fun l => zlen l = n) ls ->
    body n (map BF ls) = Ok (map BF (ew_out ps n ls))).
  { intros n ls Hn Hl HF. destruct ls as [|d [|? ?]]; try discriminate.
    inversion HF; subst. cbn [map ew_out map2 ps pm pf fst snd]. rewrite Hw. apply Hb; auto. }
  assert (H6 : forall p v1 v2, In p ps -> writes (pm p) = true -> agree ps v1 v2 -> pf p v1 = pf p v2).
  { intros p v1 v2 [<-|[]] _ Hag. destruct v1 as [|a [|? ?]], v2 as [|b [|? ?]]; cbn in *; try tauto.
    destruct Hm as [->| ->]; [apply Hmw; reflexivity|]. f_equal. apply Hag. reflexivity. }
  assert (H7 : ps <> []) by discriminate.
  split; [exact (ew_sound (t_shape A) (t_base A) ps s body H1 H2 H3 H4 H5 H6 H7)|].
  split; [exact (ew_ordered (t_shape A) (t_base A) ps body H3)|].
  eapply always_weaken; [exact (ew_always (t_shape A) (t_base A) ps s body H1 H2 H3 H4 H5 H6 H7)|].
  intros s' (He & Hf & Ht). split; [assumption|]. split.
  - intros idx Hidx. apply (He (A, m, fun v : list T => f (nth 0 v o_zero))); auto. left; reflexivity.
  - cbn in Hf. rewrite Hw in Hf. exact Hf.
Qed.

Theorem ew2 A B m (f : T -> T -> T) body s r :
  wft A -> wft B -> stored KF s A -> stored KF s B -> disj A B ->
  t_shape A = t_shape B -> t_base A = t_base B ->
  m = MW \/ m = MRW -> (m = MW -> forall a x y, f a x = f a y) ->
  (forall n a d, 0 < n -> zlen a = n -> zlen d = n ->
     body n [BF a; BF d] = Ok [BF a; BF (ztab n (fun i => f (zn a i) (zn d i)))]) ->
  r = Ok (ztab (ntiles B) (fun i => mkTask [(th A i, MR); (th B i, m)] (body (tsz B i)))) ->
  runs r s (fun s' => (forall idx, inb (t_shape B) idx -> elem s' B idx = f (elem s A idx) (elem s B idx)) /\
    frame [B] s s').
Proof.
  intros HwA HwB HsA HsB Hd ES EB Hm Hmw Hb ->. eexists. split; [reflexivity|].
  set (pA := (A, MR, fun v : list T => o_zero) : operand).
  set (pB := (B, m, fun v : list T => f (nth 0 v o_zero) (nth 1 v o_zero)) : operand).
  set (ps := [pA; pB]).
  assert (H1 : forall p, In p ps -> wft (pt p) /\ t_shape (pt p) = t_shape B /\ t_base (pt p) = t_base B).
  { intros p [<-|[<-|[]]]; cbn; auto. }
  assert (H2 : forall p, In p ps -> stored KF s (pt p)) by (intros p [<-|[<-|[]]]; assumption).
  assert (H3 : forall p, In p ps -> pm p = MR \/ pm p = MW \/ pm p = MRW).
  { intros p [<-|[<-|[]]]; cbn; [|destruct Hm]; auto. }
  assert (H4 : ForallOrdPairs (fun p q => writes (pm p) || writes (pm q) = true -> disj (pt p) (pt q)) ps).
  { repeat constructor. intros _. assumption. }
  assert (Hw : writes m = true) by (destruct Hm; subst; reflexivity).
  assert (H5 : forall n ls, 0 < n -> List.length ls = List.length ps -> Forall (fun l => zlen l = n) ls ->
    body n (map BF ls) = Ok (map BF (ew_out ps n ls))).
  { intros n ls Hn Hl HF. destruct ls as [|a [|d [|? ?]]]; try discriminate.
    inversion HF as [|? ? Ha HF']; subst. inversion HF' as [|? ? Hb' HF'']; subst.
    cbn [map ew_out map2 ps pA pB pm pf fst snd]. rewrite Hw. cbn [writes]. apply Hb; auto. }
  assert (H6 : forall p v1 v2, In p ps -> writes (pm p) = true -> agree ps v1 v2 -> pf p v1 = pf p v2).
  { intros p v1 v2 [<-|[<-|[]]] Hwp Hag; [discriminate|].
    destruct v1 as [|a1 [|a2 [|? ?]]], v2 as [|b1 [|b2 [|? ?]]]; cbn in *; try tauto.
    destruct Hag as (Ha1 & Ha2 & _). rewrite Ha1 by reflexivity.
    destruct Hm as [->| ->]; [apply Hmw; reflexivity|]. f_equal. apply Ha2. reflexivity. }
  assert (H7 : ps <> []) by discriminate.
  split; [exact (ew_sound (t_shape B) (t_base B) ps s body H1 H2 H3 H4 H5 H6 H7)|].
  split; [exact (ew_ordered (t_shape B) (t_base B) ps body H3)|].
  eapply always_weaken; [exact (ew_always (t_shape B) (t_base B) ps s body H1 H2 H3 H4 H5 H6 H7)|].
  intros s' (He & Hf & Ht). split; [assumption|]. split.
  - intros idx Hidx. apply (He pB); auto. right; left; reflexivity.
  - cbn in Hf. rewrite Hw in Hf. exact Hf.
Qed.

Theorem ew3 A B C m (f : T -> T -> T -> T) body s r :
  wft A -> wft B -> wft C -> stored KF s A -> stored KF s B -> stored KF s C ->
  disj A C -> disj B C ->
  t_shape A = t_shape C -> t_base A = t_base C -> t_shape B = t_shape C -> t_base B = t_base C ->
  m = MW \/ m = MRW -> (m = MW -> forall a b x y, f a b x = f a b y) ->
  (forall n a b d, 0 < n -> zlen a = n -> zlen b = n -> zlen d = n ->
     body n [BF a; BF b; BF d] = Ok [BF a; BF b; BF (ztab n (fun i => f (zn a i) (zn b i) (zn d i)))]) ->
  r = Ok (ztab (ntiles C) (fun i => mkTask [(th A i, MR); (th B i, MR); (th C i, m)] (body (tsz C i)))) ->
  runs r s (fun s' => (forall idx, inb (t_shape C) idx ->
      elem s' C idx = f (elem s A idx) (elem s B idx) (elem s C idx)) /\ frame [C] s s').
Proof.
  intros HwA HwB HwC HsA HsB HsC HdA HdB E1 E2 E3 E4 Hm Hmw Hb ->. eexists. split; [reflexivity|].
  set (pA := (A, MR, fun v : list T => o_zero) : operand).
  set (pB := (B, MR, fun v : list T => o_zero) : operand).
  set (pC := (C, m, fun v : list T => f (nth 0 v o_zero) (nth 1 v o_zero) (nth 2 v o_zero)) : operand).
  set (ps := [pA; pB; pC]).
  assert (H1 : forall p, In p ps -> wft (pt p) /\ t_shape (pt p) = t_shape C /\ t_base (pt p) = t_base C).
  { intros p [<-|[<-|[<-|[]]]]; cbn; auto. }
  assert (H2 : forall p, In p ps -> stored KF s (pt p)) by (intros p [<-|[<-|[<-|[]]]]; assumption).
  assert (H3 : forall p, In p ps -> pm p = MR \/ pm p = MW \/ pm p = MRW).
  { intros p [<-|[<-|[<-|[]]]]; cbn; [| |destruct Hm]; auto. }
  assert (H4 : ForallOrdPairs (fun p q => writes (pm p) || writes (pm q) = true -> disj (pt p) (pt q)) ps).
  { repeat constructor; cbn; intros; try assumption; discriminate. }
  assert (Hw : writes m = true) by (destruct Hm; subst; reflexivity).
  assert (H5 : forall n ls, 0 < n -> List.length ls = List.length ps -> Forall (fun l => zlen l = n) ls ->
    body n (map BF ls) = Ok (map BF (ew_out ps n ls))).
  { intros n ls Hn Hl HF. destruct ls as [|a [|b [|d [|? ?]]]]; try discriminate.
    inversion HF as [|? ? Ha HF']; subst. inversion HF' as [|? ? Hb' HF'']; subst.
    inversion HF'' as [|? ? Hb'' HF3]; subst.
    cbn [map ew_out map2 ps pA pB pC pm pf fst snd]. rewrite Hw. cbn [writes]. apply Hb; auto. }
  assert (H6 : forall p v1 v2, In p ps -> writes (pm p) = true -> agree ps v1 v2 -> pf p v1 = pf p v2).
  { intros p v1 v2 [<-|[<-|[<-|[]]]] Hwp Hag; try discriminate.
    destruct v1 as [|a1 [|a2 [|a3 [|? ?]]]], v2 as [|b1 [|b2 [|b3 [|? ?]]]]; cbn in *; try tauto.
    destruct Hag as (Ha1 & Ha2 & Ha3 & _). rewrite Ha1, Ha2 by reflexivity.
    destruct Hm as [->| ->]; [apply Hmw; reflexivity|]. f_equal. apply Ha3. reflexivity. }
  assert (H7 : ps <> []) by discriminate.
  split; [exact (ew_sound (t_shape C) (t_base C) ps s body H1 H2 H3 H4 H5 H6 H7)|].
  split; [exact (ew_ordered (t_shape C) (t_base C) ps body H3)|].
  eapply always_weaken; [exact (ew_always (t_shape C) (t_base C) ps s body H1 H2 H3 H4 H5 H6 H7)|].
  intros s' (He & Hf & Ht). split; [assumption|]. split.
  - intros idx Hidx. apply (He pC); auto. right; right; left; reflexivity.
  - cbn in Hf. rewrite Hw in Hf. exact Hf.
Qed.

End P.
