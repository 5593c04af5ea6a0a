(** * The sub-box copy kernel *)
From Verif Require Import Base Spec Geometry Traits TraitsProofs Axis Loops Runtime Ops SubcopyOps.

Lemma rd_mid {A} (p : list A) x l i : i = zlen p -> rd (p ++ x :: l) i = Ok x.
Proof.
  intros ->. unfold rd. pose proof (zlen_nonneg p). destruct (Z.ltb_spec (zlen p) 0); [lia|].
  rewrite nth_error_app2 by (unfold zlen in *; lia). replace (Z.to_nat (zlen p) - List.length p)%nat with O by (unfold zlen; lia). reflexivity.
Qed.
Lemma upd_mid {A} (p : list A) x l v : upd (p ++ x :: l) (List.length p) v = p ++ v :: l.
Proof. induction p; cbn; [reflexivity|]. rewrite IHp. reflexivity. Qed.
Lemma wr_mid {A} (p : list A) x l i v : i = zlen p -> wr (p ++ x :: l) i v = Ok (p ++ v :: l).
Proof.
  intros ->. unfold wr. rewrite zlen_app, zlen_cons. pose proof (zlen_nonneg p). pose proof (zlen_nonneg l).
  destruct (Z.leb_spec 0 (zlen p)); [|lia]. destruct (Z.ltb_spec (zlen p) (zlen p + (zlen l + 1))); [|lia]. cbn [andb].
  unfold zlen. rewrite Nat2Z.id, upd_mid. reflexivity.
Qed.

(** Inner product of strides and indices. *)
Fixpoint lin (st ix : list Z) : Z :=
  match st, ix with s :: st, i :: ix => i * s + lin st ix | _, _ => 0 end.

Definition bump (l : list Z) : list Z := match l with [] => [] | x :: l => (x + 1) :: l end.

(** Carry of an odometer whose digit k counts from start[k] to start[k]+shape[k]-1. *)
Fixpoint norm (start shape cur : list Z) : list Z :=
  match start, shape, cur with
  | st :: start', sh :: shape', c :: cs => if c =? st + sh then st :: norm start' shape' (bump cs) else c :: cs
  | _, _, _ => cur
  end.
Fixpoint fits (start shape cur : list Z) : Prop :=
  match start, shape, cur with
  | st :: start', sh :: shape', c :: cs => if c =? st + sh then fits start' shape' (bump cs) else True
  | _, _, _ => False
  end.

Lemma zlen_bump l : zlen (bump l) = zlen l.
Proof. destruct l; [reflexivity|]. cbn. rewrite !zlen_cons. reflexivity. Qed.
Lemma zlen_norm start shape cur : zlen (norm start shape cur) = zlen cur.
Proof.
  revert shape cur. induction start as [|st start IH]; intros [|sh shape] [|c cs]; try reflexivity. cbn [norm].
  destruct (c =? st + sh); [|reflexivity]. rewrite !zlen_cons, IH, zlen_bump. reflexivity.
Qed.

(** The odometer holds the digits of the number of steps made. *)
Lemma norm_incr start shape d : zlen start = zlen shape -> inb shape d -> off shape d + 1 < prodZ shape ->
  fits start shape (bump (map2 Z.add start d)) /\
  norm start shape (bump (map2 Z.add start d)) = map2 Z.add start (unoff shape (off shape d + 1)).
Proof.
  intros Hl Hd. revert start Hl. induction Hd as [|s x shape d Hx Hd IH]; intros start Hl Hb.
  { cbn in Hb. lia. }
  destruct start as [|st start]; [rewrite zlen_nil, zlen_cons in Hl; pose proof (zlen_nonneg shape); lia|].
  rewrite !zlen_cons in Hl. cbn [map2 bump norm fits off unoff prodZ] in *.
  destruct (Z.eqb_spec (st + x + 1) (st + s)) as [E|E].
  - assert (Es : s = x + 1) by lia. subst s.
    assert (Hb' : off shape d + 1 < prodZ shape) by nia.
    destruct (IH start ltac:(lia) Hb') as [F N]. split; [assumption|]. rewrite N.
    replace (x + (x + 1) * off shape d + 1) with ((off shape d + 1) * (x + 1)) by ring.
    rewrite Z.mod_mul, Z.div_mul by lia. cbn [map2]. f_equal. lia.
  - split; [exact I|].
    replace (x + s * off shape d + 1) with (off shape d * s + (x + 1)) by ring.
    rewrite Z.div_add_l by lia. rewrite (Z.div_small (x + 1) s) by lia. rewrite Z.add_0_r, unoff_off by assumption.
    rewrite (Z.add_comm (off shape d * s) (x + 1)), Z.mod_add by lia. rewrite Z.mod_small by lia. cbn [map2]. f_equal. lia.
Qed.

Lemma sc_carry_ok : forall start shape cur stride pb pi ps psh pst tl fuel offset base j,
  zlen shape = zlen start -> zlen cur = zlen start -> zlen stride = zlen start ->
  base = zlen pb -> j = zlen pi -> zlen ps = j -> zlen psh = j -> zlen pst = j ->
  (List.length start < fuel)%nat -> fits start shape cur ->
  sc_carry fuel base j (ps ++ start) (psh ++ shape) (pst ++ stride) (pb ++ pi ++ cur ++ tl) offset =
    Ok (pb ++ pi ++ norm start shape cur ++ tl, offset + (lin stride (norm start shape cur) - lin stride cur)).
Proof.
  induction start as [|st start IH]; intros shape cur stride pb pi ps psh pst tl fuel offset base j H1 H2 H3 Eb Ej E1 E2 E3 Hf HF;
    destruct shape as [|sh shape]; cbn [fits] in HF; try contradiction; destruct cur as [|c cs]; try contradiction.
  rewrite !zlen_cons in *. destruct stride as [|s0 stride]; [rewrite zlen_nil in H3; pose proof (zlen_nonneg start); lia|].
  rewrite !zlen_cons in *. destruct fuel as [|fuel]; [cbn in Hf; lia|]. cbn [List.length] in Hf. cbn [sc_carry].
  rewrite (app_assoc pb pi). cbn [app].
  rewrite (rd_mid (pb ++ pi) c) by (rewrite zlen_app; lia). bnd. rewrite (rd_mid ps st) by lia. bnd. rewrite (rd_mid psh sh) by lia. bnd.
  cbn [norm]. destruct (Z.eqb_spec c (st + sh)) as [Ec|Ec].
  2: { rewrite <- app_assoc. cbn [app]. f_equal. f_equal. lia. }
  rewrite (wr_mid (pb ++ pi) c) by (rewrite zlen_app; lia). bnd. cbv zeta.
  destruct cs as [|y cs].
  { exfalso. cbn [bump] in HF. clear - HF. destruct start; [contradiction|]. destruct shape; contradiction. }
  destruct stride as [|s1 stride].
  { exfalso. rewrite zlen_nil, zlen_cons in *. pose proof (zlen_nonneg cs). lia. }
  cbn [app bump] in *.
  replace ((pb ++ pi) ++ st :: y :: cs ++ tl) with ((pb ++ pi ++ [st]) ++ y :: cs ++ tl) by (rewrite <- !app_assoc; reflexivity).
  assert (Lm : base + (j + 1) = zlen (pb ++ pi ++ [st])) by (rewrite !zlen_app, zlen_cons, zlen_nil; lia).
  rewrite (rd_mid (pb ++ pi ++ [st]) y) by assumption. bnd.
  rewrite (wr_mid (pb ++ pi ++ [st]) y) by assumption. bnd.
  replace (pst ++ s0 :: s1 :: stride) with ((pst ++ [s0]) ++ s1 :: stride) at 1 by (rewrite <- app_assoc; reflexivity).
  rewrite (rd_mid (pst ++ [s0]) s1) by (rewrite zlen_app, zlen_cons, zlen_nil; lia). bnd.
  rewrite (rd_mid psh sh) by lia. bnd. rewrite (rd_mid pst s0) by lia. bnd.
  specialize (IH shape ((y + 1) :: cs) (s1 :: stride) pb (pi ++ [st]) (ps ++ [st]) (psh ++ [sh]) (pst ++ [s0]) tl fuel
    (offset + (s1 - sh * s0)) base (j + 1)).
  repeat rewrite <- app_assoc in IH. repeat rewrite <- app_assoc. cbn [app] in IH |- *. rewrite IH.
  - f_equal. f_equal. cbn [lin]. subst c. ring.
  - lia.
  - rewrite !zlen_cons in *; lia.
  - rewrite !zlen_cons in *; lia.
  - assumption.
  - rewrite zlen_app, zlen_cons, zlen_nil. lia.
  - rewrite zlen_app, zlen_cons, zlen_nil. lia.
  - rewrite zlen_app, zlen_cons, zlen_nil. lia.
  - rewrite zlen_app, zlen_cons, zlen_nil. lia.
  - lia.
  - assumption.
Qed.

(** The odometer over tiles. *)
Lemma odo_carry_ok : forall begin shape cur pb pe pi fuel k end_,
  zlen shape = zlen begin -> zlen cur = zlen begin -> end_ = map2 Z.add begin shape ->
  k = zlen pi -> zlen pb = k -> zlen pe = k -> (List.length begin < fuel)%nat -> fits begin shape cur ->
  odo_carry fuel k (pb ++ begin) (pe ++ end_) (pi ++ cur) = Ok (pi ++ norm begin shape cur).
Proof.
  induction begin as [|b begin IH]; intros shape cur pb pe pi fuel k end_ H1 H2 -> Ek E1 E2 Hf HF;
    destruct shape as [|sh shape]; cbn [fits] in HF; try contradiction; destruct cur as [|c cs]; try contradiction.
  rewrite !zlen_cons in *. destruct fuel as [|fuel]; [cbn in Hf; lia|]. cbn [List.length] in Hf. cbn [odo_carry map2].
  rewrite (rd_mid pi c) by lia. bnd. rewrite (rd_mid pe (b + sh)) by lia. bnd. cbn [norm].
  destruct (Z.eqb_spec c (b + sh)) as [Ec|Ec]; [|reflexivity].
  rewrite (rd_mid pb b) by lia. bnd. rewrite (wr_mid pi c) by lia. bnd.
  destruct cs as [|y cs].
  { exfalso. cbn [bump] in HF. clear - HF. destruct begin; [contradiction|]. destruct shape; contradiction. }
  cbn [bump] in *.
  replace (pi ++ b :: y :: cs) with ((pi ++ [b]) ++ y :: cs) by (rewrite <- app_assoc; reflexivity).
  rewrite (rd_mid (pi ++ [b]) y) by (rewrite zlen_app, zlen_cons, zlen_nil; lia). bnd.
  rewrite (wr_mid (pi ++ [b]) y) by (rewrite zlen_app, zlen_cons, zlen_nil; lia). bnd.
  specialize (IH shape ((y + 1) :: cs) (pb ++ [b]) (pe ++ [b + sh]) (pi ++ [b]) fuel (k + 1) (map2 Z.add begin shape)).
  repeat rewrite <- app_assoc in IH. repeat rewrite <- app_assoc. cbn [app] in IH |- *. rewrite IH; [reflexivity|lia| |reflexivity| | | |lia|assumption].
  - rewrite !zlen_cons in *; lia.
  - rewrite zlen_app, zlen_cons, zlen_nil. lia.
  - rewrite zlen_app, zlen_cons, zlen_nil. lia.
  - rewrite zlen_app, zlen_cons, zlen_nil. lia.
Qed.

Lemma odo_next_ok begin shape end_ i : zlen begin = zlen shape -> pos shape -> end_ = map2 Z.add begin shape ->
  0 <= i -> i + 1 < prodZ shape ->
  odo_next begin end_ (map2 Z.add begin (unoff shape i)) = Ok (map2 Z.add begin (unoff shape (i + 1))).
Proof.
  intros Hl Hp -> Hi Hi1. pose proof (unoff_inb shape i Hp ltac:(lia)) as Hu. pose proof (off_unoff shape i Hp ltac:(lia)) as Eo.
  destruct (norm_incr begin shape (unoff shape i) Hl Hu ltac:(lia)) as [F N]. rewrite Eo in N.
  unfold odo_next. remember (map2 Z.add begin (unoff shape i)) as cur eqn:Ec.
  assert (Lc : zlen cur = zlen begin) by (subst; apply zlen_map2; rewrite zlen_unoff; lia).
  destruct cur as [|c cs].
  { exfalso. cbn [bump] in F. destruct begin; [contradiction|]. destruct shape; contradiction. }
  change (c :: cs) with ([] ++ c :: cs) at 1. rewrite rd_mid by reflexivity. bnd.
  change (c :: cs) with ([] ++ c :: cs). rewrite wr_mid by reflexivity. bnd. cbn [app].
  cbn [bump] in *. rewrite <- N. pose proof (odo_carry_ok begin shape ((c + 1) :: cs) [] [] [] (S (List.length (c + 1 :: cs))) 0 (map2 Z.add begin shape)) as H.
  cbn [app] in H. apply H; try reflexivity; try lia.
  - rewrite zlen_cons in *; lia.
  - cbn [List.length]. unfold zlen in Lc. cbn [List.length] in Lc. lia.
  - assumption.
Qed.

(** Strides of a dense array. *)
Definition strides (shape : list Z) : list Z := ztab (zlen shape) (fun i => prodZ (firstn (Z.to_nat i) shape)).
Lemma strides_cons s shape : strides (s :: shape) = 1 :: map (Z.mul s) (strides shape).
Proof.
  unfold strides. rewrite zlen_cons. apply list_ext.
  - rewrite zlen_cons, zlen_map, !zlen_ztab; pose proof (zlen_nonneg shape); lia.
  - pose proof (zlen_nonneg shape) as Hn. rewrite zlen_ztab by lia. intros i Hi. rewrite zn_ztab by lia.
    destruct (Z.eq_dec i 0) as [->|Hne]; [reflexivity|].
    replace (zn (1 :: map (Z.mul s) (ztab (zlen shape) (fun i0 => prodZ (firstn (Z.to_nat i0) shape)))) i)
      with (zn (map (Z.mul s) (ztab (zlen shape) (fun i0 => prodZ (firstn (Z.to_nat i0) shape)))) (i - 1)).
    2: { unfold zn. replace (Z.to_nat i) with (S (Z.to_nat (i - 1))) by lia. reflexivity. }
    rewrite zn_map by (rewrite zlen_ztab; lia). rewrite zn_ztab by lia.
    replace (Z.to_nat i) with (S (Z.to_nat (i - 1))) by lia. reflexivity.
Qed.
Lemma lin_map_mul s st ix : lin (map (Z.mul s) st) ix = s * lin st ix.
Proof. revert ix; induction st; intros [|i ix]; cbn; try ring. rewrite IHst. ring. Qed.
Lemma lin_strides shape idx : zlen idx = zlen shape -> lin (strides shape) idx = off shape idx.
Proof.
  revert idx. induction shape as [|s shape IH]; intros [|i idx] Hl; try reflexivity.
  { exfalso. rewrite zlen_nil, zlen_cons in Hl. pose proof (zlen_nonneg shape). lia. }
  rewrite !zlen_cons in Hl. rewrite strides_cons. cbn [lin off]. rewrite (lin_map_mul s (strides shape) idx), IH by lia. ring.
Qed.
Lemma tt_stride_of shape : tt_stride (tt_of shape) = strides shape. Proof. reflexivity. Qed.
Lemma zlen_strides shape : zlen (strides shape) = zlen shape.
Proof. unfold strides. apply zlen_ztab, zlen_nonneg. Qed.

(** Which elements of a box of shape [ds] at [start] with extents [cs]. *)
Definition in_box (cs start idx : list Z) : bool := inbb cs (map2 Z.sub idx start).

Lemma add_unoff0 sh : pos sh -> forall st, zlen st = zlen sh -> map2 Z.add st (unoff sh 0) = st.
Proof.
  intros Hp. induction Hp as [|s sh Hs Hp IH]; intros [|x st] Hl; try reflexivity.
  - exfalso. rewrite zlen_nil, zlen_cons in Hl. pose proof (zlen_nonneg st). lia.
  - cbn [unoff map2]. rewrite Z.mod_0_l, Z.div_0_l by lia. rewrite IH by (rewrite !zlen_cons in Hl; lia). f_equal. lia.
Qed.

Lemma lin_firstn_nat st : forall ix n, List.length st = List.length ix -> (n < List.length ix)%nat ->
  lin (firstn (S n) st) (firstn (S n) ix) = lin (firstn n st) (firstn n ix) + nth n ix 0 * nth n st 0.
Proof.
  induction st as [|s st IH]; intros [|x ix] n Hl Hn; cbn [List.length] in *; try lia.
  destruct n as [|n].
  - cbn [firstn lin nth]. ring.
  - change (firstn (S (S n)) (s :: st)) with (s :: firstn (S n) st). change (firstn (S (S n)) (x :: ix)) with (x :: firstn (S n) ix).
    change (firstn (S n) (s :: st)) with (s :: firstn n st). change (firstn (S n) (x :: ix)) with (x :: firstn n ix).
    change (lin (s :: ?a) (x :: ?b)) with (x * s + lin a b). rewrite IH by lia. cbn [nth]. ring.
Qed.
Lemma lin_firstn st ix i : zlen st = zlen ix -> 0 <= i < zlen ix ->
  lin (firstn (Z.to_nat (i + 1)) st) (firstn (Z.to_nat (i + 1)) ix) =
  lin (firstn (Z.to_nat i) st) (firstn (Z.to_nat i) ix) + zn ix i * zn st i.
Proof.
  intros Hl Hi. unfold zlen in *. replace (Z.to_nat (i + 1)) with (S (Z.to_nat i)) by lia. apply lin_firstn_nat; lia.
Qed.

Lemma nth_skip {A} (l : list A) d : forall a b, nth b (skipn a l) d = nth (a + b) l d.
Proof.
  induction l as [|x l IH]; intros [|a] b; cbn [skipn nth Nat.add]; try reflexivity; [destruct b; reflexivity|apply IH].
Qed.

Section K.
Context {A B : Type} (get : list A -> Z -> res B) (set : list A -> Z -> B -> res (list A)).

(** The loop of the kernel as a sequence of element copies. *)
Definition cp_step (src : list A) (so dof : Z) (dst : list A) : res (list A) := x <- get src so ;; set dst dof x.

Lemma k_subcopy_loop ndim src_start src_stride copy_shape src dst_start dst_stride dst tmp :
  0 < ndim -> zlen src_start = ndim -> zlen src_stride = ndim -> zlen copy_shape = ndim -> zlen dst_start = ndim ->
  zlen dst_stride = ndim -> 2 * ndim <= zlen tmp -> pos copy_shape -> zn src_stride 0 = 1 -> zn dst_stride 0 = 1 ->
  exists tmp', zlen tmp' = zlen tmp /\
  k_subcopy get set ndim src_start src_stride copy_shape src dst_start dst_stride dst tmp =
  (dst <- for_ 0 (prodZ copy_shape) (fun m dst => cp_step src (lin src_stride (map2 Z.add src_start (unoff copy_shape m)))
             (lin dst_stride (map2 Z.add dst_start (unoff copy_shape m))) dst) dst ;; Ok (dst, tmp')).
Proof.
  intros Hn L1 L2 L3 L4 L5 L6 Hp U1 U2.
  set (S := fun m => lin src_stride (map2 Z.add src_start (unoff copy_shape m))).
  set (D := fun m => lin dst_stride (map2 Z.add dst_start (unoff copy_shape m))).
  set (N := prodZ copy_shape). assert (HN : 0 < N) by (apply prodZ_pos; assumption).
  set (TL := skipn (Z.to_nat (2 * ndim)) tmp).
  assert (LT : zlen TL = zlen tmp - 2 * ndim) by (unfold TL, zlen in *; rewrite skipn_length; lia).
  assert (ZT : forall k, 0 <= k -> zn TL k = zn tmp (2 * ndim + k)).
  { intros k Hk. unfold TL, zn. rewrite nth_skip. f_equal. lia. }
  set (tm := fun m => map2 Z.add src_start (unoff copy_shape m) ++ map2 Z.add dst_start (unoff copy_shape m) ++ TL).
  exists (tm (N - 1)). split.
  { unfold tm. rewrite !zlen_app, !zlen_map2 by (rewrite zlen_unoff; lia). lia. }
  unfold k_subcopy.
  (* first loop *)
  assert (E1 : for_ 0 ndim (fun i '(nelems, tmp0) =>
      c <- rd copy_shape i ;; s <- rd src_start i ;; tmp1 <- wr tmp0 i s ;;
      d <- rd dst_start i ;; tmp2 <- wr tmp1 (ndim + i) d ;; Ok (nelems * c, tmp2)) (1, tmp) = Ok (N, src_start ++ dst_start ++ TL)).
  { destruct (for_inv (fun i '(n, t) => n = prodZ (firstn (Z.to_nat i) copy_shape) /\ zlen t = zlen tmp /\
      (forall k, 0 <= k < i -> zn t k = zn src_start k) /\ (forall k, 0 <= k < i -> zn t (ndim + k) = zn dst_start k) /\ (forall k, 2 * ndim <= k < zlen tmp -> zn t k = zn tmp k))
      0 ndim (fun i '(nelems, tmp0) =>
      c <- rd copy_shape i ;; s <- rd src_start i ;; tmp1 <- wr tmp0 i s ;;
      d <- rd dst_start i ;; tmp2 <- wr tmp1 (ndim + i) d ;; Ok (nelems * c, tmp2)) (1, tmp)) as ([n t] & E & Hn' & Lt & T1 & T2 & T3).
    - lia.
    - split; [reflexivity|]. split; [reflexivity|]. split; [intros; lia|]. split; [intros; lia|]. reflexivity.
    - intros i [n t] Hi (En & Lt & T1 & T2 & T3). rewrite !(rd_ok) by lia. rewrite !bind_Ok.
      destruct (wr_ok t i (zn src_start i)) as (t1 & W1 & L1' & V1); [lia|]. rewrite W1. bnd. rewrite !bind_Ok.
      destruct (wr_ok t1 (ndim + i) (zn dst_start i)) as (t2 & W2 & L2' & V2); [lia|]. rewrite W2. bnd.
      eexists. split; [reflexivity|]. split.
      + subst n. rewrite prodZ_firstn_S by lia. reflexivity.
      + split; [lia|]. split; [|split]; intros k Hk.
        * rewrite V2, V1 by lia. destruct (Z.eqb_spec k (ndim + i)); [lia|]. destruct (Z.eqb_spec k i) as [->|]; [reflexivity|]. apply T1; lia.
        * rewrite V2 by lia. destruct (Z.eqb_spec (ndim + k) (ndim + i)); [f_equal; lia|]. rewrite V1 by lia.
          destruct (Z.eqb_spec (ndim + k) i); [lia|]. apply T2; lia.
        * rewrite V2, V1 by lia. destruct (Z.eqb_spec k (ndim + i)); [lia|]. destruct (Z.eqb_spec k i); [lia|]. apply T3; lia.
    - rewrite E. f_equal. f_equal.
      + rewrite Hn'. replace ndim with (zlen copy_shape) by lia. rewrite firstn_zlen. reflexivity.
      + apply list_ext; [rewrite !zlen_app; lia|]. intros k Hk. rewrite Lt in Hk.
        destruct (Z.lt_ge_cases k ndim) as [Hk'|Hk'].
        * rewrite zn_app1 by lia. apply T1; lia.
        * rewrite zn_app2 by lia. destruct (Z.lt_ge_cases k (2 * ndim)) as [Hk2|Hk2].
          -- rewrite zn_app1 by lia. replace k with (ndim + (k - ndim)) at 1 by lia. rewrite T2 by lia. f_equal. lia.
          -- rewrite zn_app2 by lia. rewrite ZT by lia. rewrite T3 by lia. f_equal. lia. }
  rewrite E1. bnd. rewrite !(rd_ok) by lia. rewrite !bind_Ok. cbv beta iota.
  (* offsets *)
  assert (E2 : for_ 1 ndim (fun i '(so, dof) => a <- rd src_start i ;; b <- rd src_stride i ;; c <- rd dst_start i ;; d <- rd dst_stride i ;;
      Ok (so + a * b, dof + c * d)) (zn src_start 0, zn dst_start 0) = Ok (S 0, D 0)).
  { assert (Hz : forall sh, pos sh -> forall st, zlen st = zlen sh -> map2 Z.add st (unoff sh 0) = st).
    { intros sh Hsh st Hst. apply add_unoff0; assumption. }
    pose proof lin_firstn as Hlin.
    unfold S, D. rewrite !Hz by (assumption || lia).
    destruct (for_inv (fun i '(so, dof) => so = lin (firstn (Z.to_nat i) src_stride) (firstn (Z.to_nat i) src_start) /\
        dof = lin (firstn (Z.to_nat i) dst_stride) (firstn (Z.to_nat i) dst_start)) 1 ndim
        (fun i '(so, dof) => a <- rd src_start i ;; b <- rd src_stride i ;; c <- rd dst_start i ;; d <- rd dst_stride i ;;
      Ok (so + a * b, dof + c * d)) (zn src_start 0, zn dst_start 0)) as ([so dof] & E & Es & Ed).
    - lia.
    - change 1 with (0 + 1). rewrite !Hlin by lia. rewrite U1, U2. replace (Z.to_nat 0) with O by lia. cbn [firstn lin]. split; ring.
    - intros i [so dof] Hi [-> ->]. rewrite !(rd_ok) by lia. rewrite !bind_Ok. eexists. split; [reflexivity|].
      rewrite !Hlin by lia. split; reflexivity.
    - rewrite E, Es, Ed.
      assert (F : forall l : list Z, zlen l = ndim -> firstn (Z.to_nat ndim) l = l) by (intros l <-; apply firstn_zlen).
      rewrite !F by assumption. reflexivity. }
  rewrite E2. bnd.
  assert (E0 : src_start ++ dst_start ++ TL = tm 0).
  { assert (Hz : forall sh, pos sh -> forall st, zlen st = zlen sh -> map2 Z.add st (unoff sh 0) = st).
    { intros sh Hsh st Hst. apply add_unoff0; assumption. }
    unfold tm. rewrite !Hz by (assumption || lia). reflexivity. }
  rewrite E0.
  (* main loop *)
  assert (Step : forall m (dst : list A), 1 <= m < N ->
    (fun i '(tmp, src_offset, dst_offset, dst) =>
      x <- rd tmp 0 ;; tmp <- wr tmp 0 (x + 1) ;;
      y <- rd tmp ndim ;; tmp <- wr tmp ndim (y + 1) ;;
      '(tmp, src_offset) <- sc_carry (Datatypes.S (Z.to_nat ndim)) 0 0 src_start copy_shape src_stride tmp src_offset ;;
      '(tmp, dst_offset) <- sc_carry (Datatypes.S (Z.to_nat ndim)) ndim 0 dst_start copy_shape dst_stride tmp dst_offset ;;
      x <- get src src_offset ;;
      dst <- set dst dst_offset x ;;
      Ok (tmp, src_offset + 1, dst_offset + 1, dst)) m (tm (m - 1), S (m - 1) + 1, D (m - 1) + 1, dst) =
    (dst <- cp_step src (S m) (D m) dst ;; Ok (tm m, S m + 1, D m + 1, dst))).
  { intros m d Hm. cbv beta iota.
    change (tm (m - 1)) with (map2 Z.add src_start (unoff copy_shape (m - 1)) ++ map2 Z.add dst_start (unoff copy_shape (m - 1)) ++ TL).
    pose proof (unoff_inb copy_shape (m - 1) Hp ltac:(unfold N in *; lia)) as Hu.
    pose proof (off_unoff copy_shape (m - 1) Hp ltac:(unfold N in *; lia)) as Eo.
    destruct (norm_incr src_start copy_shape (unoff copy_shape (m - 1)) ltac:(lia) Hu ltac:(unfold N in *; lia)) as [F1 N1].
    destruct (norm_incr dst_start copy_shape (unoff copy_shape (m - 1)) ltac:(lia) Hu ltac:(unfold N in *; lia)) as [F2 N2].
    rewrite Eo in N1, N2. replace (m - 1 + 1) with m in N1, N2 by lia.
    assert (La : zlen (map2 Z.add src_start (unoff copy_shape (m - 1))) = ndim) by (rewrite zlen_map2; rewrite ?zlen_unoff; lia).
    assert (Lb : zlen (map2 Z.add dst_start (unoff copy_shape (m - 1))) = ndim) by (rewrite zlen_map2; rewrite ?zlen_unoff; lia).
    change (S (m - 1)) with (lin src_stride (map2 Z.add src_start (unoff copy_shape (m - 1)))).
    change (D (m - 1)) with (lin dst_stride (map2 Z.add dst_start (unoff copy_shape (m - 1)))).
    destruct (map2 Z.add src_start (unoff copy_shape (m - 1))) as [|a sa] eqn:Ea; [rewrite zlen_nil in La; lia|].
    destruct (map2 Z.add dst_start (unoff copy_shape (m - 1))) as [|b sb] eqn:Eb; [rewrite zlen_nil in Lb; lia|].
    cbn [bump] in *. cbn [app].
    change (a :: sa ++ b :: sb ++ TL) with ([] ++ a :: sa ++ b :: sb ++ TL). rewrite (rd_mid [] a) by reflexivity. bnd.
    rewrite (wr_mid [] a) by reflexivity. bnd. cbn [app].
    change ((a + 1) :: sa ++ b :: sb ++ TL) with (((a + 1) :: sa) ++ b :: sb ++ TL).
    rewrite (rd_mid ((a + 1) :: sa) b) by (rewrite zlen_cons in *; lia). bnd.
    rewrite (wr_mid ((a + 1) :: sa) b) by (rewrite zlen_cons in *; lia). bnd.
    pose proof (sc_carry_ok src_start copy_shape ((a + 1) :: sa) src_stride [] [] [] [] [] ((b + 1) :: sb ++ TL) (Datatypes.S (Z.to_nat ndim)) (lin src_stride (a :: sa) + 1) 0 0) as C1.
    cbn [app] in C1. cbn [app]. rewrite zlen_cons in La, Lb. rewrite C1; clear C1; try reflexivity; try (rewrite ?zlen_cons; lia); [|unfold zlen in *; lia|assumption].
    bnd. rewrite N1.
    pose proof (sc_carry_ok dst_start copy_shape ((b + 1) :: sb) dst_stride (map2 Z.add src_start (unoff copy_shape m)) [] [] [] [] TL
       (Datatypes.S (Z.to_nat ndim)) (lin dst_stride (b :: sb) + 1) ndim 0) as C2.
    cbn [app] in C2. rewrite C2; clear C2; try reflexivity; try (rewrite ?zlen_cons; lia).
    2: { rewrite zlen_map2; rewrite ?zlen_unoff; lia. }
    2: { unfold zlen in *; lia. }
    2: { assumption. }
    bnd. rewrite N2.
    assert (HS : lin src_stride (a :: sa) + 1 + (lin src_stride (map2 Z.add src_start (unoff copy_shape m)) - lin src_stride ((a + 1) :: sa)) = S m).
    { unfold S. destruct src_stride as [|s0 ss]; [rewrite zlen_nil in L2; lia|]. change (s0 = 1) in U1. rewrite U1. cbn [lin]. ring. }
    assert (HD : lin dst_stride (b :: sb) + 1 + (lin dst_stride (map2 Z.add dst_start (unoff copy_shape m)) - lin dst_stride ((b + 1) :: sb)) = D m).
    { unfold D. destruct dst_stride as [|s0 ss]; [rewrite zlen_nil in L5; lia|]. change (s0 = 1) in U2. rewrite U2. cbn [lin]. ring. }
    rewrite HS, HD. unfold cp_step, tm. destruct (get src (S m)) as [x| |]; [|reflexivity|reflexivity]. rewrite !bind_Ok.
    destruct (set d (D m) x); reflexivity. }
  (* all together *)
  assert (Main : forall n m d, 1 <= m -> m + Z.of_nat n = N ->
    for_nat n m (fun i '(tmp, src_offset, dst_offset, dst) =>
      x <- rd tmp 0 ;; tmp <- wr tmp 0 (x + 1) ;;
      y <- rd tmp ndim ;; tmp <- wr tmp ndim (y + 1) ;;
      '(tmp, src_offset) <- sc_carry (Datatypes.S (Z.to_nat ndim)) 0 0 src_start copy_shape src_stride tmp src_offset ;;
      '(tmp, dst_offset) <- sc_carry (Datatypes.S (Z.to_nat ndim)) ndim 0 dst_start copy_shape dst_stride tmp dst_offset ;;
      x <- get src src_offset ;;
      dst <- set dst dst_offset x ;;
      Ok (tmp, src_offset + 1, dst_offset + 1, dst)) (tm (m - 1), S (m - 1) + 1, D (m - 1) + 1, d) =
    (d <- for_nat n m (fun m d => cp_step src (S m) (D m) d) d ;; Ok (tm (N - 1), S (N - 1) + 1, D (N - 1) + 1, d))).
  { induction n as [|n IH]; intros m d Hm Hmn.
    - cbn [for_nat]. bnd. replace (N - 1) with (m - 1) by lia. reflexivity.
    - cbn [for_nat]. pose proof (Step m d ltac:(lia)) as St. cbv beta iota in St |- *. rewrite St. clear St.
      destruct (cp_step src (S m) (D m) d) as [d'| |]; [|reflexivity|reflexivity]. rewrite !bind_Ok.
      specialize (IH (m + 1) d' ltac:(lia) ltac:(lia)). replace (m + 1 - 1) with m in IH by lia. exact IH. }
  unfold for_ at 2. replace (Z.to_nat (N - 0)) with (Datatypes.S (Z.to_nat (N - 1))) by lia. cbn [for_nat].
  change (cp_step src (lin src_stride (map2 Z.add src_start (unoff copy_shape 0)))
    (lin dst_stride (map2 Z.add dst_start (unoff copy_shape 0))) dst) with (x <- get src (S 0) ;; set dst (D 0) x).
  change (fun (m : Z) (dst : list A) => cp_step src (lin src_stride (map2 Z.add src_start (unoff copy_shape m)))
    (lin dst_stride (map2 Z.add dst_start (unoff copy_shape m))) dst) with (fun (m : Z) (dst : list A) => cp_step src (S m) (D m) dst).
  destruct (get src (S 0)) as [x| |]; [|reflexivity|reflexivity]. rewrite !bind_Ok.
  destruct (set dst (D 0) x) as [d| |]; [|reflexivity|reflexivity]. rewrite !bind_Ok.
  unfold for_. specialize (Main (Z.to_nat (N - 1)) 1 d ltac:(lia) ltac:(lia)). change (1 - 1) with 0 in Main.
  cbv beta iota in Main |- *. rewrite Main. change (0 + 1) with 1.
  destruct (for_nat (Z.to_nat (N - 1)) 1 (fun m d => cp_step src (S m) (D m) d) d); reflexivity.
Qed.
End K.

(** A box of extents [cs] at [start] lies inside an array of the given shape. *)
Definition box_in (shape start cs : list Z) : Prop :=
  zlen start = zlen shape /\ zlen cs = zlen shape /\
  forall k, 0 <= k < zlen shape -> 0 <= zn start k /\ 0 < zn cs k /\ zn start k + zn cs k <= zn shape k.

Lemma box_pos shape start cs : box_in shape start cs -> pos cs.
Proof. intros (L1 & L2 & H). apply pos_zn. intros i Hi. apply H. lia. Qed.
Lemma box_shape_pos shape start cs : box_in shape start cs -> pos shape.
Proof. intros (L1 & L2 & H). apply pos_zn. intros i Hi. specialize (H i Hi). lia. Qed.
Lemma box_add shape start cs d : box_in shape start cs -> inb cs d -> inb shape (map2 Z.add start d).
Proof.
  intros (L1 & L2 & H) Hd. destruct (proj1 (TraitsProofs.inb_zn _ _) Hd) as [Ld Hd']. apply TraitsProofs.inb_zn.
  split; [rewrite zlen_map2; lia|]. intros i Hi. rewrite zn_map2 by lia. specialize (H i Hi). specialize (Hd' i ltac:(lia)). lia.
Qed.
Lemma sub_add : forall start d, zlen start = zlen d -> map2 Z.sub (map2 Z.add start d) start = d.
Proof.
  induction start as [|s start IH]; intros [|x d] Hl; rewrite ?zlen_cons in Hl; cbn [map2]; try reflexivity.
  - exfalso. unfold zlen in Hl. cbn [List.length] in Hl. lia.
  - rewrite IH by lia. f_equal. lia.
Qed.
Lemma add_sub : forall start u, zlen start = zlen u -> map2 Z.add start (map2 Z.sub u start) = u.
Proof.
  induction start as [|s start IH]; intros [|x d] Hl; rewrite ?zlen_cons in Hl; cbn [map2]; try reflexivity.
  - exfalso. unfold zlen in Hl. cbn [List.length] in Hl. lia.
  - rewrite IH by lia. f_equal. lia.
Qed.

Section K2.
Context {A : Type} {DA : Dflt A}.

Theorem k_subcopy_ok ndim S D src_start dst_start cs (src dst : list A) tmp :
  0 < ndim -> zlen S = ndim -> zlen D = ndim -> box_in S src_start cs -> box_in D dst_start cs ->
  zlen src = prodZ S -> zlen dst = prodZ D -> 2 * ndim <= zlen tmp ->
  exists tmp', zlen tmp' = zlen tmp /\
    k_subcopy rd wr ndim src_start (strides S) cs src dst_start (strides D) dst tmp =
    Ok (ztab (prodZ D) (fun o => let r := map2 Z.sub (unoff D o) dst_start in
          if inbb cs r then zn src (off S (map2 Z.add src_start r)) else zn dst o), tmp').
Proof.
  intros Hn LS LD HS HD Ls Ld Lt.
  pose proof (box_pos _ _ _ HS) as Pc. pose proof (box_shape_pos _ _ _ HS) as PS. pose proof (box_shape_pos _ _ _ HD) as PD.
  pose proof HS as (A1 & A2 & A3). pose proof HD as (B1 & B2 & B3).
  assert (St0 : forall sh, 0 < zlen sh -> zn (strides sh) 0 = 1).
  { intros sh Hsh. unfold strides. rewrite zn_ztab by lia. reflexivity. }
  destruct (k_subcopy_loop rd wr ndim src_start (strides S) cs src dst_start (strides D) dst tmp) as (tmp' & Lt' & E);
    try assumption; rewrite ?zlen_strides; try lia; try (apply St0; lia).
  exists tmp'. split; [assumption|]. rewrite E. clear E.
  set (G := fun (o : Z) (v : A) => zn src (off S (map2 Z.add src_start (map2 Z.sub (unoff D o) dst_start)))).
  set (box := fun o => inbb cs (map2 Z.sub (unoff D o) dst_start)).
  assert (Hc : forall i, 0 <= i < prodZ cs -> inb D (map2 Z.add dst_start (unoff cs i))).
  { intros i Hi. apply (box_add _ _ cs); [assumption|]. apply unoff_inb; assumption. }
  assert (Hs : forall i, 0 <= i < prodZ cs -> inb S (map2 Z.add src_start (unoff cs i))).
  { intros i Hi. apply (box_add _ _ cs); [assumption|]. apply unoff_inb; assumption. }
  assert (HB : blk (prodZ D) box G (for_ 0 (prodZ cs) (fun m dst => cp_step rd wr src
      (lin (strides S) (map2 Z.add src_start (unoff cs m))) (lin (strides D) (map2 Z.add dst_start (unoff cs m))) dst))).
  { apply (blk_for (prodZ D) (prodZ cs) (fun j => off cs (map2 Z.sub (unoff D j) dst_start)) box
      (fun i j => j =? off D (map2 Z.add dst_start (unoff cs i)))).
    - pose proof (prodZ_pos cs Pc). lia.
    - intros i Hi. apply blk_wr.
      + apply off_bound, Hc. assumption.
      + intros d Hd. unfold cp_step. rewrite !lin_strides by (rewrite zlen_map2; rewrite ?zlen_unoff; lia).
        rewrite rd_ok by (rewrite Ls; apply off_bound, Hs; assumption). bnd. f_equal. unfold G.
        rewrite unoff_off by (apply Hc; assumption). rewrite sub_add by (rewrite zlen_unoff; lia). reflexivity.
    - intros i j Hi Hj. unfold box.
      assert (Hu : zlen (unoff D j) = zlen dst_start) by (rewrite zlen_unoff; lia).
      destruct (Z.eqb_spec j (off D (map2 Z.add dst_start (unoff cs i)))) as [Ej|Ej].
      + rewrite Ej. rewrite unoff_off by (apply Hc; assumption). rewrite sub_add by (rewrite zlen_unoff; lia).
        rewrite off_unoff by assumption. rewrite Z.eqb_refl, andb_true_r. symmetry. apply inbb_spec. apply unoff_inb; assumption.
      + symmetry. destruct (inbb cs (map2 Z.sub (unoff D j) dst_start)) eqn:Eb; [|reflexivity]. cbn [andb]. apply Z.eqb_neq. intros Eo.
        apply Ej. apply inbb_spec in Eb. rewrite <- Eo. rewrite unoff_off by assumption. rewrite add_sub by lia.
        symmetry. apply off_unoff; assumption.
    - intros j Hj Hb. apply off_bound. apply inbb_spec. exact Hb. }
  destruct (HB dst Ld) as (d' & E & Ld' & V). rewrite E. bnd. f_equal. f_equal. apply list_ext.
  - rewrite zlen_ztab; pose proof (prodZ_pos D PD); lia.
  - rewrite Ld'. intros j Hj. rewrite zn_ztab by lia. rewrite V by lia. fold (box j). unfold G. cbv zeta.
    change (inbb cs (map2 Z.sub (unoff D j) dst_start)) with (box j). destruct (box j); reflexivity.
Qed.
End K2.
