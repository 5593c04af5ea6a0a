(** * The generator and the random fill kernel *)
From Verif Require Import Base Spec Geometry Traits TraitsProofs Axis Loops Runtime Ops KernelsElem SubcopyOps SubcopyKernel RandnOps.

(** One step of the generator: X -> 6364136223846793005 X + 1 modulo 2^64. *)
Definition lcg (x : Z) : Z := (6364136223846793005 * x + 1) mod 2 ^ 64.
Definition lcg_iter (n : Z) (x : Z) : Z := Nat.iter (Z.to_nat n) lcg x.
Definition word (x : Z) : Prop := 0 <= x < 2 ^ 64.

Lemma word_u64 x : word (u64 x).
Proof. apply Z.mod_pos_bound. reflexivity. Qed.
Lemma u64_word x : word x -> u64 x = x.
Proof. apply Z.mod_small. Qed.
Lemma lcg_word x : word (lcg x).
Proof. apply (word_u64). Qed.
Lemma niter_word n x : word x -> word (Nat.iter n lcg x).
Proof. destruct n; [tauto|]. intros _. apply lcg_word. Qed.
Lemma iter_word n x : word x -> word (lcg_iter n x).
Proof. apply niter_word. Qed.
Lemma niter_add a b x : Nat.iter (a + b) lcg x = Nat.iter a lcg (Nat.iter b lcg x).
Proof. unfold Nat.iter. induction a; cbn; congruence. Qed.
Lemma iter_add a b x : 0 <= a -> 0 <= b -> lcg_iter (a + b) x = lcg_iter a (lcg_iter b x).
Proof. intros. unfold lcg_iter. rewrite Z2Nat.inj_add by assumption. apply niter_add. Qed.
Lemma iter_0 x : lcg_iter 0 x = x. Proof. reflexivity. Qed.

Lemma u64_step a x c : u64 (u64 (a * x) + c) = (a * x + c) mod 2 ^ 64.
Proof. unfold u64. rewrite Zplus_mod_idemp_l. reflexivity. Qed.

(** The affine map (a, c) is the m-th iterate. *)
Definition affine (a c m : Z) : Prop := forall x, word x -> (a * x + c) mod 2 ^ 64 = lcg_iter m x.
Lemma affine_double a c m : 0 <= m -> affine a c m -> affine (u64 (a * a)) (u64 (c * u64 (a + 1))) (2 * m).
Proof.
  intros Hm H x Hx. replace (2 * m) with (m + m) by lia. rewrite iter_add by assumption. rewrite <- (H x Hx). rewrite <- (H ((a * x + c) mod 2 ^ 64)) by apply word_u64.
  unfold u64. rewrite Zmult_mod_idemp_r. rewrite Zplus_mod, Zmult_mod_idemp_l, Zmod_mod, <- Zplus_mod.
  rewrite (Zplus_mod (a * ((a * x + c) mod 2 ^ 64)) c), Zmult_mod_idemp_r, <- Zplus_mod. f_equal. ring.
Qed.
Lemma affine_1 : affine Rnd64_A Rnd64_C 1.
Proof. intros x Hx. reflexivity. Qed.

Lemma rnd64_loop_ok : forall fuel n a c m ran, 0 <= n < 2 ^ Z.of_nat fuel -> 0 <= m -> affine a c m -> word ran ->
  rnd64_loop (S fuel) n a c ran = Ok (lcg_iter (m * n) ran).
Proof.
  induction fuel as [|fuel IH]; intros n a c m ran Hn Hm HA Hr; cbn [rnd64_loop].
  - change (2 ^ Z.of_nat 0) with 1 in Hn. assert (n = 0) by lia. subst n. rewrite Z.mul_0_r. reflexivity.
  - destruct (Z.eqb_spec n 0) as [->|Hn0]; [rewrite Z.mul_0_r; reflexivity|]. cbv zeta.
    rewrite Nat2Z.inj_succ, Z.pow_succ_r in Hn by lia.
    assert (Hs : Z.shiftr n 1 = n / 2) by (rewrite Z.shiftr_div_pow2 by lia; reflexivity).
    assert (Hl : Z.land n 1 = n mod 2) by (change 1 with (Z.ones 1) at 1; rewrite Z.land_ones by lia; reflexivity).
    pose proof (Z.div_mod n 2 ltac:(lia)) as Dm. pose proof (Z.mod_pos_bound n 2 ltac:(lia)) as Db.
    change (rnd64_loop (S fuel) (Z.shiftr n 1) (u64 (a * a)) (u64 (c * u64 (a + 1)))
       (if Z.land n 1 =? 0 then ran else u64 (u64 (a * ran) + c)) = Ok (lcg_iter (m * n) ran)).
    rewrite (IH (Z.shiftr n 1) _ _ (2 * m)).
    + rewrite Hl, Hs. f_equal. destruct (Z.eqb_spec (n mod 2) 0) as [E|E].
      * f_equal. nia.
      * rewrite u64_step, (HA ran Hr). rewrite <- iter_add by nia. f_equal. nia.
    + rewrite Hs. lia.
    + lia.
    + apply affine_double; assumption.
    + destruct (Z.land n 1 =? 0); [assumption|apply word_u64].
Qed.

(** The period divides 2^64. *)
Fixpoint doubles (k : nat) (p : Z * Z) : Z * Z :=
  match k with O => p | S k => let '(a, c) := doubles k p in (u64 (a * a), u64 (c * u64 (a + 1))) end.
Lemma affine_doubles k : affine (fst (doubles k (Rnd64_A, Rnd64_C))) (snd (doubles k (Rnd64_A, Rnd64_C))) (2 ^ Z.of_nat k).
Proof.
  induction k as [|k IH]; [apply affine_1|]. cbn [doubles]. destruct (doubles k (Rnd64_A, Rnd64_C)) as [a c]. cbn [fst snd] in *.
  rewrite Nat2Z.inj_succ, Z.pow_succ_r by lia. apply affine_double; [apply Z.pow_nonneg; lia|assumption].
Qed.
Lemma period x : word x -> lcg_iter (2 ^ 64) x = x.
Proof.
  intros Hx. pose proof (affine_doubles 64 x Hx) as E.
  assert (D : doubles 64 (Rnd64_A, Rnd64_C) = (1, 0)) by (vm_compute; reflexivity). rewrite D in E.
  change (Z.of_nat 64) with 64 in E. rewrite <- E. cbn [fst snd]. rewrite Z.mul_1_l, Z.add_0_r. apply Z.mod_small, Hx.
Qed.
Lemma periods k x : 0 <= k -> word x -> lcg_iter (k * 2 ^ 64) x = x.
Proof.
  intros Hk Hx. revert k Hk. apply (natlike_ind (fun k => lcg_iter (k * 2 ^ 64) x = x)); [reflexivity|].
  intros k Hk IH. rewrite Z.mul_succ_l, iter_add by lia.
  rewrite period by assumption. exact IH.
Qed.
Lemma iter_mod n x : 0 <= n -> word x -> lcg_iter (n mod 2 ^ 64) x = lcg_iter n x.
Proof.
  intros Hn Hx. assert (P : 0 < 2 ^ 64) by reflexivity. rewrite (Z.div_mod n (2 ^ 64)) at 2 by lia.
  rewrite (Z.add_comm _ (n mod 2 ^ 64)).
  rewrite iter_add; [|apply Z.mod_pos_bound; exact P|apply Z.mul_nonneg_nonneg; [lia|apply Z.div_pos; lia]].
  rewrite Z.mul_comm, periods; [reflexivity|apply Z.div_pos; lia|assumption].
Qed.

Lemma jump_ok n x : 0 <= n -> word x -> CORE_rnd64_jump n x = Ok (lcg_iter (2 * n) x).
Proof.
  intros Hn Hx. unfold CORE_rnd64_jump. cbv zeta. rewrite (rnd64_loop_ok 64 _ _ _ 1).
  - f_equal. rewrite Z.mul_1_l. rewrite Z.shiftl_mul_pow2 by lia. change (2 ^ 1) with 2. unfold u64. rewrite Zmult_mod_idemp_l.
    rewrite iter_mod by (assumption || lia). f_equal. lia.
  - apply word_u64.
  - lia.
  - apply affine_1.
  - assumption.
Qed.

Lemma off_add us : forall a b, zlen a = zlen us -> zlen b = zlen us -> off us (map2 Z.add a b) = off us a + off us b.
Proof.
  induction us as [|u us IH]; intros a b Ha Hb; [reflexivity|].
  destruct a as [|x a]; [exfalso; rewrite zlen_nil, zlen_cons in Ha; pose proof (zlen_nonneg us); lia|].
  destruct b as [|y b]; [exfalso; rewrite zlen_nil, zlen_cons in Hb; pose proof (zlen_nonneg us); lia|].
  rewrite !zlen_cons in *. cbn [map2 off]. rewrite IH by lia. ring.
Qed.
Lemma off_bump us l : l <> [] -> zlen l = zlen us -> off us (bump l) = off us l + 1.
Proof. destruct us as [|u us], l as [|x l]; rewrite ?zlen_nil, ?zlen_cons; intros H E; try congruence. - pose proof (zlen_nonneg l). lia. - cbn [bump off]. ring. Qed.
Lemma add_zeros : forall n d, zlen d = n -> map2 Z.add (zrep n 0) d = d.
Proof.
  intros n d <-. induction d as [|x d IH]; [reflexivity|]. rewrite zlen_cons. unfold zrep in *.
  replace (Z.to_nat (zlen d + 1)) with (S (Z.to_nat (zlen d))) by (pose proof (zlen_nonneg d); lia). cbn [repeat map2]. rewrite IH. reflexivity.
Qed.
Lemma unoff_incr shape i : pos shape -> 0 <= i -> i + 1 < prodZ shape ->
  fits (zrep (zlen shape) 0) shape (bump (unoff shape i)) /\ norm (zrep (zlen shape) 0) shape (bump (unoff shape i)) = unoff shape (i + 1).
Proof.
  intros Hp Hi Hi1. pose proof (unoff_inb shape i Hp ltac:(lia)) as Hu. pose proof (off_unoff shape i Hp ltac:(lia)) as Eo.
  assert (Hl : zlen (zrep (zlen shape) 0) = zlen shape) by (apply zlen_zrep, zlen_nonneg).
  destruct (norm_incr (zrep (zlen shape) 0) shape (unoff shape i) Hl Hu ltac:(lia)) as [F N].
  rewrite Eo in N. rewrite !add_zeros in * by (rewrite zlen_unoff; reflexivity). split; assumption.
Qed.

(** The carry loop: the index moves to the next column, the shift grows by the distance in the underlying array, the pointer does not move. *)
Lemma rn_carry_ok : forall shape us cur stride psh pus pst pi tl fuel shift U p k,
  zlen us = zlen shape -> zlen cur = zlen shape -> zlen stride = zlen shape ->
  k = zlen pi -> zlen psh = k -> zlen pus = k -> zlen pst = k -> (List.length shape < fuel)%nat ->
  Forall2 (fun s u => 0 < s <= u) shape us -> 0 <= U ->
  (forall i, 0 <= i -> i + 1 < zlen shape -> zn stride (i + 1) = zn stride i * zn shape i) ->
  fits (zrep (zlen shape) 0) shape cur ->
  let r := shift + U * (off us (norm (zrep (zlen shape) 0) shape cur) - off us cur) in
  rn_carry fuel k (psh ++ shape) (pus ++ us) (pst ++ stride) (pi ++ cur ++ tl) shift U p =
    Ok (pi ++ norm (zrep (zlen shape) 0) shape cur ++ tl, r, p) /\ shift <= r.
Proof.
  induction shape as [|sh shape IH]; intros us cur stride psh pus pst pi tl fuel shift U p k H1 H2 H3 Ek E1 E2 E3 Hf HB HU HS HF.
  { cbn in HF. contradiction. }
  rewrite zlen_cons in *. pose proof (zlen_nonneg shape) as Nn.
  assert (Ez : zrep (zlen shape + 1) 0 = 0 :: zrep (zlen shape) 0).
  { unfold zrep. replace (Z.to_nat (zlen shape + 1)) with (S (Z.to_nat (zlen shape))) by lia. reflexivity. }
  rewrite Ez in *.
  destruct us as [|u us]; [rewrite zlen_nil in H1; lia|]. destruct cur as [|c cs]; [rewrite zlen_nil in H2; lia|].
  destruct stride as [|s0 stride]; [rewrite zlen_nil in H3; lia|]. rewrite !zlen_cons in *. inversion HB as [|? ? ? ? Hsu HB']; subst x y l l'.
  destruct fuel as [|fuel]; [cbn in Hf; lia|]. cbn [List.length] in Hf. cbn [rn_carry app].
  rewrite (rd_mid pi c) by lia. bnd. rewrite (rd_mid psh sh) by lia. bnd. cbn [norm fits] in *. rewrite Z.add_0_l in *.
  destruct (Z.eqb_spec c sh) as [Ec|Ec].
  2: { cbn [app]. rewrite Z.sub_diag, Z.mul_0_r, Z.add_0_r. split; [reflexivity|lia]. }
  rewrite (wr_mid pi c) by lia. bnd. cbv zeta.
  destruct cs as [|y cs].
  { exfalso. cbn [bump] in HF. destruct shape; cbn in HF; [contradiction|]. unfold zrep in HF. destruct (Z.to_nat _); cbn in HF; contradiction. }
  destruct stride as [|s1 stride]; [exfalso; rewrite zlen_nil, zlen_cons in *; pose proof (zlen_nonneg cs); lia|].
  assert (Est : s1 = s0 * sh).
  { specialize (HS 0 ltac:(lia)). rewrite zlen_cons in *. pose proof (zlen_nonneg stride). specialize (HS ltac:(lia)). exact HS. }
  cbn [app bump] in *.
  replace (pi ++ 0 :: y :: cs ++ tl) with ((pi ++ [0]) ++ y :: cs ++ tl) by (rewrite <- app_assoc; reflexivity).
  assert (Lm : k + 1 = zlen (pi ++ [0])) by (rewrite zlen_app, zlen_cons, zlen_nil; lia).
  rewrite (rd_mid (pi ++ [0]) y) by assumption. bnd. rewrite (wr_mid (pi ++ [0]) y) by assumption. bnd.
  rewrite (rd_mid pus u) by lia. bnd. rewrite (rd_mid psh sh) by lia. bnd.
  replace (pst ++ s0 :: s1 :: stride) with ((pst ++ [s0]) ++ s1 :: stride) at 1 by (rewrite <- app_assoc; reflexivity).
  rewrite (rd_mid (pst ++ [s0]) s1) by (rewrite zlen_app, zlen_cons, zlen_nil; lia). bnd.
  rewrite (rd_mid pst s0) by lia. bnd.
  specialize (IH us ((y + 1) :: cs) (s1 :: stride) (psh ++ [sh]) (pus ++ [u]) (pst ++ [s0]) (pi ++ [0]) tl fuel
    (shift + U * (u - sh)) (U * u) (p + (s1 - s0 * sh)) (k + 1)).
  repeat rewrite <- app_assoc in IH. repeat rewrite <- app_assoc. cbn [app] in IH |- *.
  destruct IH as [IH1 IH2].
  - lia.
  - rewrite !zlen_cons in *; lia.
  - rewrite !zlen_cons in *; lia.
  - rewrite zlen_app, zlen_cons, zlen_nil. lia.
  - rewrite zlen_app, zlen_cons, zlen_nil. lia.
  - rewrite zlen_app, zlen_cons, zlen_nil. lia.
  - rewrite zlen_app, zlen_cons, zlen_nil. lia.
  - lia.
  - assumption.
  - clear - HU Hsu. nia.
  - intros i Hi Hi1. specialize (HS (i + 1) ltac:(lia) ltac:(lia)). unfold zn in *.
    replace (Z.to_nat (i + 1 + 1)) with (S (Z.to_nat (i + 1))) in HS by lia. replace (Z.to_nat (i + 1)) with (S (Z.to_nat i)) in * by lia. exact HS.
  - assumption.
  - rewrite IH1. subst c s1.
    assert (Er : shift + U * (u - sh) + U * u * (off us (norm (zrep (zlen shape) 0) shape (y + 1 :: cs)) - off us (y + 1 :: cs)) =
       shift + U * (off (u :: us) (0 :: norm (zrep (zlen shape) 0) shape (y + 1 :: cs)) - off (u :: us) (sh :: y :: cs))).
    { change (y + 1 :: cs) with (bump (y :: cs)). rewrite (off_bump us (y :: cs)); [cbn [off]; ring|discriminate|rewrite zlen_cons in *; lia]. }
    rewrite <- Er. split; [|clear - IH2 HU Hsu; nia]. replace (p + (s0 * sh - s0 * sh)) with p by lia. reflexivity.
Qed.

Section KR.
Context {T : Type} {OT : Ops T} (o_cos : T -> T).
Local Existing Instance DfltOps.
(** The number generated from a state. *)
Definition gv (mean stddev : T) (x : Z) : T := fst (chameleon_randn o_cos x mean stddev).
Lemma gen_next mean stddev x : chameleon_randn o_cos x mean stddev = (gv mean stddev x, lcg_iter 2 x).
Proof. unfold gv, chameleon_randn, CORE_laran. cbv beta iota zeta. cbn [fst]. rewrite !u64_step. reflexivity. Qed.

Lemma randn_column_ok nrows mean stddev stride data p seed : 0 <= nrows -> 0 < zlen stride -> zn stride 0 = 1 -> 0 <= p -> p + nrows <= zlen data ->
  exists data', randn_column o_cos nrows mean stddev stride data p seed = Ok (data', p + nrows, lcg_iter (2 * nrows) seed) /\ zlen data' = zlen data /\
    forall q, 0 <= q < zlen data -> zn data' q = if (p <=? q) && (q <? p + nrows) then gv mean stddev (lcg_iter (2 * (q - p)) seed) else zn data q.
Proof.
  intros Hn Hl Hs Hp Hd. unfold randn_column.
  destruct (for_inv (fun i '(d, p', x) => p' = p + i /\ x = lcg_iter (2 * i) seed /\ zlen d = zlen data /\
    forall q, 0 <= q < zlen data -> zn d q = if (p <=? q) && (q <? p + i) then gv mean stddev (lcg_iter (2 * (q - p)) seed) else zn data q) 0 nrows
    (fun (_ : Z) '(data, p, seed) => let '(v, seed) := chameleon_randn o_cos seed mean stddev in
      data <- wr data p v ;; s0 <- rd stride 0 ;; Ok (data, p + s0, seed)) (data, p, seed)) as ([[d p'] x] & E & -> & -> & L & V).
  - assumption.
  - split; [lia|]. split; [reflexivity|]. split; [reflexivity|]. intros q Hq. destruct (Z.leb_spec p q), (Z.ltb_spec q (p + 0)); try lia; reflexivity.
  - intros i [[d p'] x] Hi (-> & -> & L & V). rewrite gen_next.
    destruct (wr_ok d (p + i) (gv mean stddev (lcg_iter (2 * i) seed))) as (d' & W & L' & V'); [lia|]. rewrite W. bnd.
    rewrite rd_ok by lia. bnd. rewrite Hs. eexists. split; [reflexivity|]. split; [lia|]. split; [rewrite <- iter_add by lia; f_equal; lia|]. split; [lia|].
    intros q Hq. rewrite V' by lia. destruct (Z.eqb_spec q (p + i)) as [->|Hne].
    + destruct (Z.leb_spec p (p + i)), (Z.ltb_spec (p + i) (p + (i + 1))); try lia. cbn [andb]. do 2 f_equal. lia.
    + rewrite V by lia. destruct (Z.leb_spec p q), (Z.ltb_spec q (p + i)), (Z.ltb_spec q (p + (i + 1))); try lia; reflexivity.
  - exists d. split; [exact E|]. split; assumption.
Qed.

Lemma start_shift us start : zlen start = zlen us -> 0 < zlen us ->
  (shift <- rd start (zlen us - 1) ;; for_down (zlen us - 2) 0 (fun i shift => s <- rd start i ;; u <- rd us i ;; Ok (s + shift * u)) shift) = Ok (off us start).
Proof.
  intros Hl Hn.
  assert (Hskip : forall i, 0 <= i < zlen us -> off (skipn (Z.to_nat i) us) (skipn (Z.to_nat i) start) =
     zn start i + off (skipn (Z.to_nat (i + 1)) us) (skipn (Z.to_nat (i + 1)) start) * zn us i).
  { intros i Hi. replace (Z.to_nat (i + 1)) with (S (Z.to_nat i)) by lia. unfold zn. unfold zlen in *. remember (Z.to_nat i) as n eqn:En.
    assert (Hn' : (n < List.length us)%nat) by lia. assert (Hl' : List.length start = List.length us) by lia. clear - Hn' Hl'. revert us start Hn' Hl'.
    induction n as [|n IH]; intros [|u us] [|s start] Hn Hl; cbn [List.length] in *; try lia; [cbn; ring|]. cbn [skipn nth]. apply IH; lia. }
  rewrite rd_ok by lia. bnd.
  destruct (ford_inv (fun i shift => shift = off (skipn (Z.to_nat (i + 1)) us) (skipn (Z.to_nat (i + 1)) start)) (zlen us - 2) 0
    (fun i shift => s <- rd start i ;; u <- rd us i ;; Ok (s + shift * u)) (zn start (zlen us - 1))) as (r & E & Hr).
  - lia.
  - replace (zlen us - 2 + 1) with (zlen us - 1) by lia. rewrite Hskip by lia. replace (zlen us - 1 + 1) with (zlen us) by lia.
    rewrite (skipn_all2 us) by (unfold zlen; lia). cbn [off]. ring.
  - intros i shift Hi ->. rewrite !rd_ok by lia. rewrite !bind_Ok. eexists. split; [reflexivity|].
    replace (i - 1 + 1) with i by lia. rewrite (Hskip i) by lia. reflexivity.
  - rewrite E, Hr. reflexivity.
Qed.

Lemma unoff_zero sh : unoff sh 0 = zrep (zlen sh) 0.
Proof.
  induction sh as [|a sh IH]; [reflexivity|]. cbn [unoff]. rewrite Zmod_0_l, Zdiv_0_l, IH, zlen_cons. unfold zrep.
  replace (Z.to_nat (zlen sh + 1)) with (S (Z.to_nat (zlen sh))) by (pose proof (zlen_nonneg sh); lia). reflexivity.
Qed.
Lemma off_unoff_0 us sh : off us (unoff sh 0) = 0.
Proof. revert us. induction sh as [|a sh IH]; intros [|u us]; try reflexivity. cbn [unoff off]. rewrite Zmod_0_l, Zdiv_0_l, IH. lia. Qed.
Lemma box_f2 us start shape : box_in us start shape -> Forall2 (fun s u => 0 < s <= u) shape us.
Proof.
  intros (L1 & L2 & H). revert us start L1 L2 H. induction shape as [|s shape IH]; intros us start L1 L2 H.
  - destruct us as [|u us]; [constructor|]. rewrite zlen_cons, zlen_nil in L2. pose proof (zlen_nonneg us). lia.
  - destruct us as [|u us]; [rewrite zlen_cons, zlen_nil in L2; pose proof (zlen_nonneg shape); lia|].
    destruct start as [|x start]; [rewrite zlen_cons, zlen_nil in L1; pose proof (zlen_nonneg us); lia|]. rewrite !zlen_cons in *.
    pose proof (zlen_nonneg us) as Nn. constructor; [specialize (H 0 ltac:(lia)); change (0 <= x /\ 0 < s /\ x + s <= u) in H; lia|]. apply (IH us start); [lia|lia|].
    intros k Hk. specialize (H (k + 1) ltac:(lia)). unfold zn in *. replace (Z.to_nat (k + 1)) with (S (Z.to_nat k)) in H by lia. exact H.
Qed.
Lemma strides_next shape i : 0 <= i -> i + 1 < zlen shape -> zn (strides shape) (i + 1) = zn (strides shape) i * zn shape i.
Proof. intros Hi Hi1. unfold strides. rewrite !zn_ztab by lia. apply prodZ_firstn_S. lia. Qed.

Theorem k_randn_ok ndim seed mean stddev start shape us data tmp :
  0 < ndim -> zlen us = ndim -> box_in us start shape -> zlen data = prodZ shape -> ndim <= zlen tmp -> word seed ->
  exists tmp', zlen tmp' = zlen tmp /\
  k_randn o_cos ndim (prodZ shape) seed mean stddev start shape us data (strides shape) tmp =
    Ok (ztab (prodZ shape) (fun o => gv mean stddev (lcg_iter (2 * off us (map2 Z.add start (unoff shape o))) seed)), tmp').
Proof.
  intros Hn Lu HB Ld Lt Hw. pose proof HB as (L1 & L2 & Hb). pose proof (box_pos _ _ _ HB) as Pc. pose proof (box_f2 _ _ _ HB) as HF2.
  pose proof (box_shape_pos _ _ _ HB) as Pu.
  assert (Hs0 : 0 <= off us start).
  { assert (inb us start) as Hin; [|pose proof (off_bound _ _ Hin); lia]. apply TraitsProofs.inb_zn. split; [lia|]. intros i Hi. specialize (Hb i ltac:(lia)). lia. }
  unfold k_randn. pose proof (start_shift us start L1 ltac:(lia)) as E0. rewrite Lu in E0.
  destruct (rd start (ndim - 1)) as [x0| |] eqn:Ex; [|discriminate E0|discriminate E0]. rewrite bind_Ok in E0. bnd. rewrite E0. bnd. clear E0 Ex x0.
  rewrite jump_ok by assumption. bnd.
  assert (Hsp : forall l, zlen l = ndim -> exists a l', (l : list Z) = a :: l' /\ zlen l' = ndim - 1).
  { intros [|a l'] E; [rewrite zlen_nil in E; lia|]. rewrite zlen_cons in E. exists a, l'. split; [reflexivity|lia]. }
  destruct (Hsp shape ltac:(lia)) as (n0 & sht & Esh & Lsh). destruct (Hsp us ltac:(lia)) as (u0 & ut & Eus & Lut).
  rewrite rd_ok by lia. bnd. assert (En0 : zn shape 0 = n0) by (subst; reflexivity). rewrite En0.
  assert (Hn0 : 0 < n0 <= u0) by (subst; inversion HF2; assumption).
  assert (Pt : pos sht) by (subst; inversion Pc; assumption).
  assert (Eprod : prodZ shape = n0 * prodZ sht) by (subst; reflexivity). pose proof (prodZ_pos sht Pt) as Hpt. set (NC := prodZ sht) in *.
  unfold cdiv. destruct (Z.eqb_spec n0 0) as [Q|_]; [lia|]. bnd. replace (Z.quot (prodZ shape) n0) with NC by (rewrite Eprod, Z.mul_comm, Z.quot_mul by lia; reflexivity).
  assert (St0 : zn (strides shape) 0 = 1) by (unfold strides; rewrite zn_ztab by lia; reflexivity).
  set (pos_ := fun j => off us start + u0 * off ut (unoff sht j)).
  set (x0 := lcg_iter (2 * off us start) seed).
  (* first column *)
  destruct (randn_column_ok n0 mean stddev (strides shape) data 0 x0) as (d1 & E1 & Ld1 & V1); [lia|rewrite zlen_strides; lia|assumption|lia|rewrite Ld, Eprod; nia|].
  rewrite E1. bnd. rewrite Z.add_0_l.
  (* zero index *)
  set (TL := skipn (Z.to_nat ndim) tmp).
  assert (LT : zlen TL = zlen tmp - ndim) by (unfold TL, zlen in *; rewrite skipn_length; lia).
  assert (E2 : for_ 0 ndim (fun i tmp => wr tmp i 0) tmp = Ok (0 :: unoff sht 0 ++ TL)).
  { destruct (for_inv (fun i t => zlen t = zlen tmp /\ (forall k, 0 <= k < i -> zn t k = 0) /\ (forall k, ndim <= k < zlen tmp -> zn t k = zn tmp k))
      0 ndim (fun i tmp => wr tmp i 0) tmp) as (t & E & Lt' & T1 & T2).
    - lia.
    - split; [reflexivity|]. split; [intros; lia|reflexivity].
    - intros i t Hi (Lt' & T1 & T2). destruct (wr_ok t i 0) as (t' & W & L' & V); [lia|]. exists t'. split; [exact W|]. split; [lia|]. split.
      + intros k Hk. rewrite V by lia. destruct (Z.eqb_spec k i); [reflexivity|]. apply T1; lia.
      + intros k Hk. rewrite V by lia. destruct (Z.eqb_spec k i); [lia|]. apply T2; lia.
    - rewrite E. f_equal.
      rewrite unoff_zero. change (0 :: zrep (zlen sht) 0 ++ TL) with ((0 :: zrep (zlen sht) 0) ++ TL).
      replace (0 :: zrep (zlen sht) 0) with (zrep ndim 0) by (unfold zrep; replace (Z.to_nat ndim) with (S (Z.to_nat (zlen sht))) by lia; reflexivity).
      apply list_ext; [rewrite zlen_app, zlen_zrep by lia; lia|]. intros k Hk. rewrite Lt' in Hk. destruct (Z.lt_ge_cases k ndim) as [Hk'|Hk'].
      + rewrite zn_app1 by (rewrite zlen_zrep; lia). rewrite zn_zrep by lia. apply T1; lia.
      + rewrite zn_app2 by (rewrite zlen_zrep; lia). rewrite zlen_zrep by lia. unfold TL. rewrite T2 by lia. unfold zn. rewrite nth_skip. f_equal. lia. }
  rewrite E2. bnd.
  set (body := fun (j : Z) '(data, p, seed, tmp) =>
      x <- rd tmp 1 ;; tmp <- wr tmp 1 (x + 1) ;;
      u0 <- rd us 0 ;;
      let shift := u0 - n0 in
      let underlying_stride := u0 in
      s1 <- rd (strides shape) 1 ;; s0 <- rd (strides shape) 0 ;;
      let p := p + (s1 - s0 * n0) in
      '(tmp, shift, p) <- rn_carry (S (Z.to_nat ndim)) 1 shape us (strides shape) tmp shift underlying_stride p ;;
      seed <- CORE_rnd64_jump shift seed ;;
      '(data, p, seed) <- randn_column o_cos n0 mean stddev (strides shape) data p seed ;;
      Ok (data, p, seed, tmp)).
  destruct (for_inv (fun j '(d, p, x, t) => zlen d = prodZ shape /\ p = n0 * j /\ x = lcg_iter (2 * (pos_ (j - 1) + n0)) seed /\ 0 <= pos_ (j - 1) /\
      t = 0 :: unoff sht (j - 1) ++ TL /\
      forall q, 0 <= q < n0 * j -> zn d q = gv mean stddev (lcg_iter (2 * (pos_ (q / n0) + q mod n0)) seed)) 1 NC body
      (d1, n0, lcg_iter (2 * n0) x0, 0 :: unoff sht 0 ++ TL)) as ([[[d p] x] t] & E & A1 & A2 & A3 & A3' & A4 & A5).
  - lia.
  - assert (P0 : pos_ 0 = off us start).
    { unfold pos_. rewrite off_unoff_0. lia. }
    change (1 - 1) with 0. rewrite P0. split; [lia|]. split; [lia|]. split; [unfold x0; rewrite <- iter_add by lia; f_equal; lia|]. split; [assumption|].
    split; [reflexivity|]. intros q Hq. rewrite V1 by (rewrite Ld, Eprod; nia). destruct (Z.leb_spec 0 q), (Z.ltb_spec q (0 + n0)); try lia. cbn [andb].
    rewrite Z.div_small, Z.mod_small by lia. rewrite P0. unfold x0. rewrite <- iter_add by lia. do 2 f_equal. lia.
  - intros j [[[d p] x] t] Hj (A1 & -> & -> & Hpj & -> & A5). unfold body.
    destruct (unoff_incr sht (j - 1) Pt ltac:(lia) ltac:(fold NC; lia)) as [F N]. replace (j - 1 + 1) with j in N by lia.
    pose proof (zlen_unoff sht (j - 1)) as Lun. 
    destruct (unoff sht (j - 1)) as [|c cs] eqn:Ecs.
    { exfalso. clear - F. cbn [bump] in F. destruct sht; cbn in F; [contradiction|]. unfold zrep in F. destruct (Z.to_nat _); cbn in F; contradiction. }
    cbn [bump] in *.
    change (0 :: (c :: cs) ++ TL) with ([0] ++ c :: cs ++ TL). rewrite (rd_mid [0] c) by reflexivity. bnd. rewrite (wr_mid [0] c) by reflexivity. bnd.
    rewrite zlen_cons in Lun. pose proof (zlen_nonneg cs) as Ncs.
    rewrite rd_ok by lia. bnd. assert (Eu0 : zn us 0 = u0) by (subst; reflexivity). rewrite Eu0. cbv zeta.
    rewrite !rd_ok by (rewrite zlen_strides; lia). rewrite !bind_Ok. rewrite St0.
    assert (St1 : zn (strides shape) 1 = n0) by (pose proof (strides_next shape 0 ltac:(lia) ltac:(lia)) as Q; rewrite St0, En0 in Q; change (0 + 1) with 1 in Q; lia).
    rewrite St1. replace (n0 * j + (n0 - 1 * n0)) with (n0 * j) by lia.
    assert (Lst : exists a l, strides shape = a :: l /\ zlen l = ndim - 1) by (apply Hsp; rewrite zlen_strides; lia). destruct Lst as (a & l & El & Ll).
    assert (HSt : forall i, 0 <= i -> i + 1 < zlen sht -> zn l (i + 1) = zn l i * zn sht i).
    { intros i Hi Hi1. pose proof (strides_next shape (i + 1) ltac:(lia) ltac:(lia)) as Q. rewrite El, Esh in Q. unfold zn in *.
      replace (Z.to_nat (i + 1 + 1)) with (S (S (Z.to_nat i))) in Q by lia. replace (Z.to_nat (i + 1)) with (S (Z.to_nat i)) in * by lia. exact Q. }
    destruct (rn_carry_ok sht ut ((c + 1) :: cs) l [n0] [u0] [a] [0] TL (S (Z.to_nat ndim)) (u0 - n0) u0 (n0 * j) 1) as [EC Hpos];
      try reflexivity; try assumption; try (rewrite ?zlen_cons; lia).
    { unfold zlen in Lsh. lia. }
    { subst shape us. inversion HF2; assumption. }
    cbn [app] in EC. rewrite <- Esh, <- Eus in EC. rewrite El. cbn [app]. rewrite EC. bnd. clear EC.
    rewrite N in *. change (c + 1 :: cs) with (bump (c :: cs)) in *. rewrite off_bump in * by (discriminate || (rewrite zlen_cons; lia)).
    set (sh := u0 - n0 + u0 * (off ut (unoff sht j) - (off ut (c :: cs) + 1))) in *.
    assert (Esh' : pos_ j = pos_ (j - 1) + n0 + sh) by (unfold pos_, sh; rewrite Ecs; ring).
    rewrite jump_ok by (lia || (apply iter_word; assumption)). bnd. rewrite <- iter_add by lia. replace (2 * sh + 2 * (pos_ (j - 1) + n0)) with (2 * pos_ j) by lia.
    destruct (randn_column_ok n0 mean stddev (a :: l) d (n0 * j) (lcg_iter (2 * pos_ j) seed)) as (d' & E' & L' & V').
    { lia. } { rewrite zlen_cons; lia. } { rewrite <- El. assumption. } { nia. } { rewrite A1, Eprod. clear - Hj Hn0. nia. }
    rewrite E'. bnd. eexists. split; [reflexivity|]. replace (j + 1 - 1) with j by lia. split; [congruence|]. split; [lia|].
    split; [rewrite <- iter_add by lia; f_equal; lia|]. split; [lia|]. split; [reflexivity|].
    intros q Hq. assert (Hq' : q < prodZ shape) by (rewrite Eprod; nia). rewrite V' by lia. destruct (Z.leb_spec (n0 * j) q).
    + destruct (Z.ltb_spec q (n0 * j + n0)); [|lia]. cbn [andb]. assert (Eq : q / n0 = j) by (symmetry; apply (Z.div_unique q n0 j (q - n0 * j)); lia).
      rewrite Z.mod_eq, Eq by lia. rewrite <- iter_add by lia. do 2 f_equal. lia.
    + cbn [andb]. apply A5. lia.
  - fold body. rewrite E. bnd. exists t. split.
    + subst t. rewrite zlen_cons, zlen_app, zlen_unoff. lia.
    + f_equal. f_equal. apply list_ext; [rewrite zlen_ztab; lia|]. intros q Hq. rewrite zn_ztab by lia. rewrite A5 by lia. do 3 f_equal.
      rewrite off_add by (rewrite ?zlen_unoff; lia). unfold pos_. rewrite Esh, Eus. cbn [unoff off]. lia.
Qed.
End KR.
