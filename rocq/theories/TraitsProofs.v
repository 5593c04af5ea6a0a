(** * Proofs about the traits model *)

From Verif Require Import Base Spec Geometry Traits.

(** ** Check loops *)
Lemma for_check_ok lo hi (body : Z -> unit -> res unit) :
  (forall i, lo <= i < hi -> body i tt = Ok tt) -> for_ lo hi body tt = Ok tt.
Proof.
  intros Hb. destruct (Z.le_gt_cases hi lo); [apply for_empty; lia|].
  destruct (for_inv (fun _ _ => True) lo hi body tt) as (u & E & _); [lia|auto| |].
  - intros i [] Hi _. exists tt. auto.
  - destruct u. exact E.
Qed.

Lemma for_check_inv lo hi (body : Z -> unit -> res unit) :
  for_ lo hi body tt = Ok tt -> forall i, lo <= i < hi -> body i tt = Ok tt.
Proof.
  intros E i Hi. remember (Z.to_nat (hi - lo)) as n eqn:Hn.
  unfold for_ in E. rewrite <- Hn in E. revert lo Hi Hn E.
  induction n; intros lo Hi Hn E; [lia|]. simpl in E.
  destruct (body lo tt) as [[]| |] eqn:Eb; simpl in E; try discriminate.
  destruct (Z.eq_dec i lo); [subst; assumption|].
  apply (IHn (lo + 1)); [lia|lia|assumption].
Qed.

Lemma for_check_throw lo hi (body : Z -> unit -> res unit) m :
  (forall i, lo <= i < hi -> body i tt = Ok tt \/ body i tt = Throw m) ->
  (exists i, lo <= i < hi /\ body i tt = Throw m) ->
  for_ lo hi body tt = Throw m.
Proof.
  intros Hb (i & Hi & Ei). remember (Z.to_nat (hi - lo)) as n eqn:Hn.
  unfold for_. rewrite <- Hn. revert lo Hb Hi Hn.
  induction n; intros lo Hb Hi Hn; [lia|]. simpl.
  destruct (Hb lo ltac:(lia)) as [E|E]; rewrite E; simpl; [|reflexivity].
  destruct (Z.eq_dec i lo); [subst; congruence|].
  apply IHn; [intros; apply Hb; lia|lia|lia].
Qed.

(** ** TileTraits *)

Definition tt_of (shape : list Z) : TileTraits :=
  mkTT (zlen shape) shape
       (ztab (zlen shape) (fun i => prodZ (firstn (Z.to_nat i) shape)))
       (prodZ shape)
       (ztab (zlen shape + 1) (fun i => (prodZ (firstn (Z.to_nat i) shape), prodZ (skipn (Z.to_nat i) shape)))).

Lemma pos_zn shape : pos shape <-> forall i, 0 <= i < zlen shape -> 0 < zn shape i.
Proof.
  unfold pos. rewrite Forall_nth. unfold zn, zlen. split.
  - intros H i Hi. apply H. lia.
  - intros H i d Hi. rewrite (nth_indep _ d dflt) by lia.
    rewrite <- (Nat2Z.id i) at 1. apply H. lia.
Qed.

Lemma check_shape_ok shape : pos shape -> TileTraits_check_shape shape = Ok tt.
Proof.
  rewrite pos_zn. intros H. apply for_check_ok. intros i Hi.
  rewrite rd_ok by assumption. simpl. specialize (H i Hi).
  destruct (Z.leb_spec (zn shape i) 0); [lia|reflexivity].
Qed.

Lemma check_shape_throw shape : ~ pos shape -> TileTraits_check_shape shape = Throw "shape[i] <= 0".
Proof.
  rewrite pos_zn. intros H. apply for_check_throw.
  - intros i Hi. rewrite rd_ok by assumption. simpl. unfold throw_if.
    destruct (zn shape i <=? 0); auto.
  - assert (Hn : exists n, (n < List.length shape)%nat /\ nth n shape 0 <= 0).
    { destruct (Exists_dec (fun s => s <= 0) shape) as [E|E]; [intros; apply Z_le_dec| |].
      - apply Exists_nth in E as (n & d & Hn & E). exists n. split; [assumption|].
        rewrite (nth_indep _ 0 d) by assumption. assumption.
      - exfalso. apply H. apply pos_zn. apply Forall_Exists_neg in E.
        eapply Forall_impl; [|exact E]. intros a Ha; simpl in Ha. lia. }
    destruct Hn as (n & Hn & E). exists (Z.of_nat n). split; [unfold zlen; lia|].
    rewrite rd_ok by (unfold zlen; lia). simpl. unfold zn. rewrite Nat2Z.id.
    change (@dflt Z _) with 0. destruct (Z.leb_spec (nth n shape 0) 0); [reflexivity|lia].
Qed.

Lemma wr_fst_ok l i v : 0 <= i < zlen l -> exists l', wr_fst l i v = Ok l' /\ zlen l' = zlen l /\
  forall j, 0 <= j -> zn l' j = if j =? i then (v, snd (zn l i)) else zn l j.
Proof. intros Hi. unfold wr_fst. rewrite rd_ok by assumption. simpl. apply wr_ok; assumption. Qed.
Lemma wr_snd_ok l i v : 0 <= i < zlen l -> exists l', wr_snd l i v = Ok l' /\ zlen l' = zlen l /\
  forall j, 0 <= j -> zn l' j = if j =? i then (fst (zn l i), v) else zn l j.
Proof. intros Hi. unfold wr_snd. rewrite rd_ok by assumption. simpl. apply wr_ok; assumption. Qed.

Lemma firstn_S_zn {A} `{Dflt A} (l : list A) i : 0 <= i < zlen l ->
  firstn (Z.to_nat (i + 1)) l = firstn (Z.to_nat i) l ++ [zn l i].
Proof.
  intros Hi. unfold zn, zlen in *. replace (Z.to_nat (i + 1)) with (S (Z.to_nat i)) by lia.
  assert (Hn : (Z.to_nat i < List.length l)%nat) by lia. clear Hi. revert l Hn.
  generalize (Z.to_nat i) as n. induction n; intros l Hn; destruct l; simpl in *; try lia; [reflexivity|].
  f_equal. apply IHn. lia.
Qed.

Lemma skipn_zn {A} `{Dflt A} (l : list A) i : 0 <= i < zlen l ->
  skipn (Z.to_nat i) l = zn l i :: skipn (Z.to_nat (i + 1)) l.
Proof.
  intros Hi. pose proof (firstn_skipn_zn l i Hi) as E.
  rewrite <- (firstn_skipn (Z.to_nat i) l) in E at 1. apply app_inv_head in E. exact E.
Qed.

Lemma firstn_zlen {A} (l : list A) : firstn (Z.to_nat (zlen l)) l = l.
Proof. unfold zlen. rewrite Nat2Z.id. apply firstn_all. Qed.
Lemma skipn_zlen {A} (l : list A) : skipn (Z.to_nat (zlen l)) l = [].
Proof. unfold zlen. rewrite Nat2Z.id. apply skipn_all. Qed.

Lemma prodZ_firstn_S shape i : 0 <= i < zlen shape ->
  prodZ (firstn (Z.to_nat (i + 1)) shape) = prodZ (firstn (Z.to_nat i) shape) * zn shape i.
Proof. intros. rewrite firstn_S_zn by assumption. rewrite prodZ_app. simpl. ring. Qed.

Theorem TileTraits_new_ok shape : pos shape -> TileTraits_new shape = Ok (tt_of shape).
Proof.
  intros Hp. unfold TileTraits_new. cbv zeta. rewrite check_shape_ok by assumption. bnd.
  set (n := zlen shape). assert (Hn : 0 <= n) by apply zlen_nonneg.
  destruct (wr_fst_ok (zrep (n + 1) (0, 0)) 0 1) as (ms0 & E0 & L0 & V0);
    [rewrite zlen_zrep; lia|]. rewrite E0; bnd.
  rewrite zlen_zrep in L0 by lia.
  destruct (for_inv (fun i '(tmp, ms) => tmp = prodZ (firstn (Z.to_nat (i - 1)) shape) /\ zlen ms = n + 1 /\
     forall j, 0 <= j < i -> fst (zn ms j) = prodZ (firstn (Z.to_nat j) shape))
     1 (n + 1) (fun i '(tmp, ms) =>
      x <- rd shape (i - 1) ;;
      ms <- wr_fst ms i (tmp * x) ;;
      Ok (tmp * x, ms)) (1, ms0)) as ([tmp1 ms1] & E1 & Htmp & L1 & V1); [lia| | |].
  { split; [reflexivity|]. split; [assumption|]. intros j Hj. replace j with 0 by lia.
    rewrite V0 by lia. reflexivity. }
  { intros i [tmp ms] Hi (Ht & Lm & Vm). rewrite rd_ok by (unfold n in *; lia). bndz.
    destruct (wr_fst_ok ms i (tmp * zn shape (i - 1))) as (ms' & E & Lm' & Vm'); [lia|].
    rewrite E; bnd. eexists; split; [reflexivity|].
    assert (Hpr : tmp * zn shape (i - 1) = prodZ (firstn (Z.to_nat i) shape)).
    { rewrite Ht. pose proof (prodZ_firstn_S shape (i - 1) ltac:(unfold n in *; lia)) as Hs.
      replace (i - 1 + 1) with i in Hs by lia. lia. }
    replace (i + 1 - 1) with i by lia.
    split; [assumption|]. split; [lia|].
    intros j Hj. rewrite Vm' by lia. destruct (Z.eqb_spec j i); [subst; assumption|]. apply Vm; lia. }
  rewrite E1; bnd.
  destruct (wr_snd_ok ms1 n 1) as (ms2 & E2 & L2 & V2); [lia|]. rewrite E2; bnd.
  destruct (ford_inv (fun i '(tmp, ms) => tmp = prodZ (skipn (Z.to_nat i) shape) /\ zlen ms = n + 1 /\
     (forall j, 0 <= j <= n -> fst (zn ms j) = prodZ (firstn (Z.to_nat j) shape)) /\
     (forall j, i <= j <= n -> snd (zn ms j) = prodZ (skipn (Z.to_nat j) shape)))
     n 1 (fun i '(tmp, ms) =>
      x <- rd shape (i - 1) ;;
      ms <- wr_snd ms (i - 1) (tmp * x) ;;
      Ok (tmp * x, ms)) (1, ms2)) as ([tmp3 ms3] & E3 & Htmp3 & L3 & V3 & W3); [lia| | |].
  { assert (Hsk : skipn (Z.to_nat n) shape = []) by apply skipn_zlen.
    split; [rewrite Hsk; reflexivity|]. split; [lia|]. split.
    - intros j Hj. rewrite V2 by lia. destruct (Z.eqb_spec j n); [subst|]; simpl; apply V1; lia.
    - intros j Hj. replace j with n by lia. rewrite V2 by lia. rewrite Z.eqb_refl. rewrite Hsk. reflexivity. }
  { intros i [tmp ms] Hi (Ht & Lm & Vm & Wm). rewrite rd_ok by (unfold n in *; lia). bndz.
    destruct (wr_snd_ok ms (i - 1) (tmp * zn shape (i - 1))) as (ms' & E & Lm' & Vm'); [lia|].
    rewrite E; bnd. eexists; split; [reflexivity|].
    assert (Hpr : tmp * zn shape (i - 1) = prodZ (skipn (Z.to_nat (i - 1)) shape)).
    { rewrite (skipn_zn shape (i - 1)) by (unfold n in *; lia). replace (i - 1 + 1) with i by lia.
      simpl. rewrite <- Ht. ring. }
    split; [assumption|]. split; [lia|]. split.
    - intros j Hj. rewrite Vm' by lia. destruct (Z.eqb_spec j (i - 1)); [subst|]; simpl; apply Vm; lia.
    - intros j Hj. rewrite Vm' by lia. destruct (Z.eqb_spec j (i - 1)); [subst; assumption|]. apply Wm; lia. }
  rewrite E3; bnd.
  destruct (for_inv (fun i st => zlen st = n /\ forall j, 0 <= j < i -> zn st j = prodZ (firstn (Z.to_nat j) shape))
     0 n (fun i st => r <- rd ms3 i ;; wr st i (fst r)) (zrep n 0)) as (st & E4 & L4 & V4); [lia| | |].
  { split; [apply zlen_zrep; lia|]. intros; lia. }
  { intros i st Hi (Ls & Vs). rewrite rd_ok by lia. bnd.
    destruct (wr_ok st i (fst (zn ms3 i))) as (st' & E & Ls' & Vs'); [lia|]. rewrite E.
    eexists; split; [reflexivity|]. split; [lia|]. intros j Hj. rewrite Vs' by lia.
    destruct (Z.eqb_spec j i); [subst; apply V3; lia|]. apply Vs; lia. }
  rewrite E4; bnd. unfold tt_of. f_equal. fold n. f_equal.
  - apply list_ext; [rewrite zlen_ztab; lia|]. intros i Hi. rewrite zn_ztab by lia. apply V4; lia.
  - rewrite Htmp. replace (n + 1 - 1) with n by lia. unfold n. rewrite firstn_zlen. reflexivity.
  - apply list_ext; [rewrite zlen_ztab; lia|]. intros i Hi. rewrite zn_ztab by lia.
    rewrite <- V3, <- W3 by lia. destruct (zn ms3 i); reflexivity.
Qed.

Theorem TileTraits_new_throw shape : ~ pos shape -> TileTraits_new shape = Throw "shape[i] <= 0".
Proof. intros H. unfold TileTraits_new. rewrite check_shape_throw by assumption. reflexivity. Qed.

Lemma pos_dec shape : pos shape \/ ~ pos shape.
Proof. unfold pos. destruct (Forall_dec (fun s => 0 < s) (fun s => Z_lt_dec 0 s) shape); auto. Qed.

Lemma TileTraits_new_inv shape t : TileTraits_new shape = Ok t -> pos shape /\ t = tt_of shape.
Proof.
  intros H. destruct (pos_dec shape) as [P|P].
  - rewrite TileTraits_new_ok in H by assumption. split; [assumption|congruence].
  - rewrite TileTraits_new_throw in H by assumption. discriminate.
Qed.

(** *** index_to_linear *)

Lemma inb_zn shape idx : inb shape idx <->
  zlen shape = zlen idx /\ forall i, 0 <= i < zlen shape -> 0 <= zn idx i < zn shape i.
Proof.
  split.
  - intros H. split; [apply inb_zlen; assumption|]. induction H as [|s i shape idx Hi H IH].
    + intros i Hi. change (0 <= i < 0) in Hi. lia.
    + intros j Hj. rewrite zlen_cons in Hj. destruct (Z.eq_dec j 0); [subst; exact Hi|].
      specialize (IH (j - 1) ltac:(lia)). unfold zn in *.
      replace (Z.to_nat j) with (S (Z.to_nat (j - 1))) by lia. exact IH.
  - revert idx. induction shape as [|s shape IH]; intros [|i idx] (Hl & Hi).
    { constructor. }
    { exfalso. rewrite zlen_nil, zlen_cons in Hl. pose proof (zlen_nonneg idx). lia. }
    { exfalso. rewrite zlen_nil, zlen_cons in Hl. pose proof (zlen_nonneg shape). lia. }
    rewrite !zlen_cons in Hl. constructor.
    + specialize (Hi 0). rewrite zlen_cons in Hi. pose proof (zlen_nonneg shape). exact (Hi ltac:(lia)).
    + apply IH. split; [lia|]. intros j Hj. specialize (Hi (j + 1)). rewrite zlen_cons in Hi.
      specialize (Hi ltac:(lia)). unfold zn in *. replace (Z.to_nat (j + 1)) with (S (Z.to_nat j)) in Hi by lia. exact Hi.
Qed.

Lemma off_firstn_S shape idx i : zlen shape = zlen idx -> 0 <= i < zlen shape ->
  off (firstn (Z.to_nat (i + 1)) shape) (firstn (Z.to_nat (i + 1)) idx)
  = off (firstn (Z.to_nat i) shape) (firstn (Z.to_nat i) idx) + zn idx i * prodZ (firstn (Z.to_nat i) shape).
Proof.
  intros Hl Hi. rewrite !firstn_S_zn by lia. rewrite off_app.
  - simpl. ring.
  - unfold zlen in *. rewrite !firstn_length. lia.
Qed.

Theorem index_to_linear_ok shape idx : inb shape idx ->
  index_to_linear (tt_of shape) idx = Ok (off shape idx).
Proof.
  intros H. pose proof (proj1 (inb_zn shape idx) H) as (Hl & Hb).
  unfold index_to_linear. cbn [tt_of tt_ndim tt_shape tt_stride].
  rewrite Hl, Z.eqb_refl. cbn [negb throw_if].
  destruct (Z.eqb_spec (zlen idx) 0) as [E0|E0].
  { destruct shape; [|rewrite zlen_cons in Hl; pose proof (zlen_nonneg shape); lia]. reflexivity. }
  pose proof (zlen_nonneg idx).
  rewrite !rd_ok by lia. cbn [bind]. unfold throw_if at 1.
  pose proof (Hb 0 ltac:(lia)).
  replace ((zn idx 0 <? 0) || (zn idx 0 >=? zn shape 0)) with false
    by (symmetry; apply orb_false_iff; split; [apply Z.ltb_ge|]; lia).
  destruct (for_inv (fun i lin => lin = off (firstn (Z.to_nat i) shape) (firstn (Z.to_nat i) idx))
    1 (zlen idx) (fun i lin =>
    x <- rd idx i ;;
    s <- rd shape i ;;
    throw_if ((x <? 0) || (x >=? s)) "Index out of bounds" (
    st <- rd (ztab (zlen idx) (fun i => prodZ (firstn (Z.to_nat i) shape))) i ;;
    Ok (lin + x * st))) (zn idx 0)) as (lin & E & Hlin); [lia| | |].
  - change 1 with (0 + 1). rewrite off_firstn_S by lia. simpl. ring.
  - intros i s Hi Hs. rewrite !rd_ok by lia. cbn [bind]. pose proof (Hb i ltac:(lia)).
    unfold throw_if. replace ((zn idx i <? 0) || (zn idx i >=? zn shape i)) with false
      by (symmetry; apply orb_false_iff; split; [apply Z.ltb_ge|]; lia).
    rewrite rd_ok by (rewrite zlen_ztab; lia). cbn [bind]. rewrite zn_ztab by lia.
    eexists; split; [reflexivity|]. rewrite Hs. rewrite off_firstn_S by lia. ring.
  - rewrite E, Hlin. rewrite <- Hl at 1. rewrite firstn_zlen, firstn_zlen. reflexivity.
Qed.

Theorem index_to_linear_throw shape idx : pos shape -> ~ inb shape idx ->
  exists m, index_to_linear (tt_of shape) idx = Throw m.
Proof.
  intros Hp H. unfold index_to_linear. cbn [tt_of tt_ndim tt_shape tt_stride].
  destruct (Z.eqb_spec (zlen idx) (zlen shape)) as [El|El]; cbn [negb throw_if]; [|eauto].
  destruct (Z.eqb_spec (zlen shape) 0) as [E0|E0].
  { exfalso. apply H. destruct shape; [|rewrite zlen_cons in E0; pose proof (zlen_nonneg shape); lia].
    destruct idx; [constructor|]. rewrite zlen_cons, zlen_nil in El. pose proof (zlen_nonneg idx). lia. }
  pose proof (zlen_nonneg idx).
  rewrite !rd_ok by lia. cbn [bind]. unfold throw_if at 1.
  destruct ((zn idx 0 <? 0) || (zn idx 0 >=? zn shape 0)) eqn:C0; [eauto|].
  apply orb_false_iff in C0 as [C0 C0']. apply Z.ltb_ge in C0. 
  assert (C1 : zn idx 0 < zn shape 0) by lia. clear C0'.
  match goal with |- exists m, for_ 1 _ ?b ?s = _ => set (body := b); set (s0 := s) end.
  assert (Hbody : forall i s, 0 <= i < zlen shape ->
     (~ (0 <= zn idx i < zn shape i) /\ body i s = Throw "Index out of bounds") \/
     (0 <= zn idx i < zn shape i /\ exists s', body i s = Ok s')).
  { intros i s Hi. unfold body. rewrite !rd_ok by lia. cbn [bind]. unfold throw_if.
    destruct ((zn idx i <? 0) || (zn idx i >=? zn shape i)) eqn:C.
    - left. split; [|reflexivity]. apply orb_true_iff in C. destruct C as [C|C]; [apply Z.ltb_lt in C|]; lia.
    - right. apply orb_false_iff in C as [C C']. apply Z.ltb_ge in C. split; [lia|].
      rewrite rd_ok by (rewrite zlen_ztab; lia). cbn [bind]. eauto. }
  assert (Hbad : exists i, 1 <= i < zlen shape /\ ~ (0 <= zn idx i < zn shape i)).
  { assert (D : forall n, (exists i, 0 <= i < Z.of_nat n /\ ~ (0 <= zn idx i < zn shape i)) \/
                (forall i, 0 <= i < Z.of_nat n -> 0 <= zn idx i < zn shape i)).
    { induction n as [|n [(i & Hi & Hx)|IH]]; [right; intros; lia|left; exists i; split; [lia|assumption]|].
      destruct (Z_le_dec 0 (zn idx (Z.of_nat n))), (Z_lt_dec (zn idx (Z.of_nat n)) (zn shape (Z.of_nat n)));
        [right|left|left|left].
      - intros i Hi. destruct (Z.eq_dec i (Z.of_nat n)); [subst; lia|]. apply IH; lia.
      - exists (Z.of_nat n); lia.
      - exists (Z.of_nat n); lia.
      - exists (Z.of_nat n); lia. }
    destruct (D (Z.to_nat (zlen shape))) as [(i & Hi & Hx)|D'].
    - exists i. split; [|assumption]. destruct (Z.eq_dec i 0); [subst; lia|lia].
    - exfalso. apply H. apply inb_zn. split; [lia|]. intros i Hi. apply D'. lia. }
  destruct Hbad as (i & Hi & Hx). unfold for_.
  assert (G : forall n lo s, Z.of_nat n = zlen shape - lo -> 1 <= lo <= i -> exists m, for_nat n lo body s = Throw m).
  { induction n; intros lo s Hn Hlo; [lia|]. simpl.
    destruct (Hbody lo s ltac:(lia)) as [(_ & E)|(Hok & s' & E)]; rewrite E; cbn [bind]; [eauto|].
    apply IHn; [lia|]. destruct (Z.eq_dec lo i); [subst; contradiction|lia]. }
  apply (G _ 1 s0); lia.
Qed.

Definition inbb (shape idx : list Z) : bool :=
  (fix go s i := match s, i with
   | [], [] => true
   | x :: s', y :: i' => (0 <=? y) && (y <? x) && go s' i'
   | _, _ => false end) shape idx.

Lemma inbb_spec shape idx : inbb shape idx = true <-> inb shape idx.
Proof.
  revert idx; induction shape; destruct idx; simpl; split; intros H; try discriminate; try (inversion H; fail); try constructor.
  - apply andb_true_iff in H as [H1 H2]. apply andb_true_iff in H1 as [H0 H1]. apply Z.leb_le in H0. apply Z.ltb_lt in H1. lia.
  - apply andb_true_iff in H as [H1 H2]. apply IHshape. exact H2.
  - inversion H; subst. apply andb_true_iff; split; [apply andb_true_iff; split; [apply Z.leb_le|apply Z.ltb_lt]; lia|].
    apply IHshape. assumption.
Qed.

Lemma inb_dec shape idx : inb shape idx \/ ~ inb shape idx.
Proof. rewrite <- inbb_spec. destruct (inbb shape idx); [left|right]; congruence. Qed.

Lemma index_to_linear_inv shape idx o : pos shape ->
  index_to_linear (tt_of shape) idx = Ok o -> inb shape idx /\ o = off shape idx.
Proof.
  intros Hp E. destruct (inb_dec shape idx) as [H|H].
  - rewrite index_to_linear_ok in E by assumption. split; [assumption|congruence].
  - destruct (index_to_linear_throw shape idx Hp H) as (m & E'). congruence.
Qed.

(** *** linear_to_index *)

Lemma unoff_firstn_skipn : forall a shape o,
  firstn a (unoff shape o) = unoff (firstn a shape) o.
Proof. induction a; intros shape o; destruct shape; simpl; auto. f_equal. apply IHa. Qed.

Lemma unoff_app s1 s2 o : pos s1 -> 0 <= o -> unoff (s1 ++ s2) o = unoff s1 o ++ unoff s2 (o / prodZ s1).
Proof.
  intros Hp. revert o. induction Hp as [|s l Hs Hp IH]; simpl; intros o Ho.
  - rewrite Z.div_1_r. reflexivity.
  - f_equal. rewrite IH by (apply Z.div_pos; lia). f_equal. f_equal.
    rewrite Z.div_div; [reflexivity|lia|apply prodZ_pos; assumption].
Qed.

Lemma unoff_mod_prefix s1 o : pos s1 -> 0 <= o -> unoff s1 (o mod prodZ s1) = unoff s1 o.
Proof.
  intros Hp. revert o. induction Hp as [|s l Hs Hp IH]; simpl; intros o Ho; [reflexivity|].
  pose proof (prodZ_pos l Hp) as Hl.
  assert (E : o mod (s * prodZ l) = o mod s + s * (o / s mod prodZ l)) by (apply Z.rem_mul_r; lia).
  f_equal.
  - rewrite E. replace (o mod s + s * (o / s mod prodZ l)) with (o mod s + (o / s mod prodZ l) * s) by ring.
    rewrite Z.mod_add by lia. apply Z.mod_mod; lia.
  - rewrite <- (IH (o / s)) by (apply Z.div_pos; lia). f_equal.
    rewrite E. replace (o mod s + s * (o / s mod prodZ l)) with ((o / s mod prodZ l) * s + o mod s) by ring.
    rewrite Z.div_add_l by lia. rewrite (Z.div_small (o mod s)) by (apply Z.mod_pos_bound; lia). lia.
Qed.

Lemma firstn_pos n shape : pos shape -> pos (firstn n shape).
Proof. intros H. rewrite <- (firstn_skipn n shape) in H. apply pos_app in H. tauto. Qed.
Lemma skipn_pos n shape : pos shape -> pos (skipn n shape).
Proof. intros H. rewrite <- (firstn_skipn n shape) in H. apply pos_app in H. tauto. Qed.

Lemma zlen_unoff shape o : zlen (unoff shape o) = zlen shape.
Proof. unfold zlen. rewrite unoff_length. reflexivity. Qed.

(** i-th coordinate of an offset *)
Lemma zn_unoff shape o i : pos shape -> 0 <= o -> 0 <= i < zlen shape ->
  zn (unoff shape o) i = (o / prodZ (firstn (Z.to_nat i) shape)) mod zn shape i.
Proof.
  intros Hp Ho Hi. rewrite (firstn_skipn_zn shape i Hi) at 1.
  rewrite unoff_app by (try apply firstn_pos; assumption). simpl.
  unfold zn at 1. rewrite app_nth2.
  - rewrite unoff_length. rewrite firstn_length. unfold zlen in Hi.
    replace (Z.to_nat i - Nat.min (Z.to_nat i) (List.length shape))%nat with 0%nat by lia. reflexivity.
  - rewrite unoff_length, firstn_length. unfold zlen in Hi. lia.
Qed.

Theorem linear_to_index_ok shape o : pos shape -> 0 <= o < prodZ shape ->
  linear_to_index (tt_of shape) o = Ok (unoff shape o).
Proof.
  intros Hp Ho. unfold linear_to_index. cbn [tt_of tt_ndim tt_shape tt_stride tt_nelems].
  unfold throw_if. replace ((o <? 0) || (o >=? prodZ shape)) with false
    by (symmetry; apply orb_false_iff; split; [apply Z.ltb_ge|]; lia).
  destruct (Z.eqb_spec (zlen shape) 0) as [E0|E0].
  { destruct shape; [reflexivity|]. rewrite zlen_cons in E0. pose proof (zlen_nonneg shape); lia. }
  set (n := zlen shape) in *. assert (Hn : 0 < n) by (pose proof (zlen_nonneg shape); lia).
  destruct (ford_inv (fun i '(lin, index) => 
      lin = o mod prodZ (firstn (Z.to_nat (i + 1)) shape) /\ zlen index = n /\
      forall j, i < j < n -> zn index j = zn (unoff shape o) j)
    (n - 1) 1 (fun i '(lin, index) =>
      st <- rd (ztab n (fun i => prodZ (firstn (Z.to_nat i) shape))) i ;;
      d <- cdiv lin st ;;
      index <- wr index i d ;;
      Ok (lin - d * st, index)) (o, zrep n 0)) as ([lin index] & E & Hlin & Li & Vi); [lia| | |].
  - replace (n - 1 + 1) with n by lia. unfold n at 1. rewrite firstn_zlen.
    rewrite Z.mod_small by lia. split; [reflexivity|]. split; [apply zlen_zrep; lia|]. intros; lia.
  - intros i [lin index] Hi (Hlin & Li & Vi).
    rewrite rd_ok by (rewrite zlen_ztab; lia). cbn [bind]. rewrite zn_ztab by lia.
    assert (Hq : 0 < prodZ (firstn (Z.to_nat i) shape)) by (apply prodZ_pos, firstn_pos; assumption).
    assert (Hs : 0 < zn shape i) by (apply pos_zn; [assumption|fold n; lia]).
    rewrite prodZ_firstn_S in Hlin by (fold n; lia).
    assert (Hl0 : 0 <= lin) by (rewrite Hlin; apply Z.mod_pos_bound; nia).
    rewrite cdiv_ok by lia. cbn [bind].
    set (q := prodZ (firstn (Z.to_nat i) shape)) in *.
    assert (Hd : lin / q = (o / q) mod zn shape i).
    { rewrite Hlin. rewrite Z.rem_mul_r by lia.
      replace (o mod q + q * ((o / q) mod zn shape i)) with (((o / q) mod zn shape i) * q + o mod q) by ring.
      rewrite Z.div_add_l by lia. rewrite (Z.div_small (o mod q)) by (apply Z.mod_pos_bound; lia). lia. }
    destruct (wr_ok index i (lin / q)) as (index' & E & Li' & Vi'); [lia|]. rewrite E. cbn [bind].
    eexists; split; [reflexivity|]. replace (i - 1 + 1) with i by lia. fold q.
    split; [|split; [lia|]].
    + rewrite Hd, Hlin. rewrite Z.rem_mul_r by lia. ring.
    + intros j Hj. rewrite Vi' by lia. destruct (Z.eqb_spec j i); [|apply Vi; lia].
      subst j. rewrite Hd. rewrite zn_unoff by (fold n; auto; lia). reflexivity.
  - rewrite E. cbn [bind]. destruct (wr_ok index 0 lin) as (index' & E' & Li' & Vi'); [lia|].
    rewrite E'. f_equal. apply list_ext; [rewrite zlen_unoff; fold n; lia|].
    intros j Hj. rewrite Vi' by lia. destruct (Z.eqb_spec j 0).
    + subst j. rewrite zn_unoff by (fold n; auto; lia). rewrite Hlin.
      replace (1 - 1 + 1) with (0 + 1) by lia. rewrite prodZ_firstn_S by (fold n; lia). simpl.
      rewrite Z.div_1_r, Z.mul_1_l. reflexivity.
    + apply Vi; lia.
Qed.

Theorem linear_to_index_throw shape o : ~ (0 <= o < prodZ shape) ->
  linear_to_index (tt_of shape) o = Throw "Index out of bounds".
Proof.
  intros Ho. unfold linear_to_index. cbn [tt_of tt_ndim tt_shape tt_stride tt_nelems].
  unfold throw_if. replace ((o <? 0) || (o >=? prodZ shape)) with true; [reflexivity|].
  symmetry. apply orb_true_iff. destruct (Z.ltb_spec o 0); [auto|right; lia].
Qed.

Lemma linear_to_index_inv shape o idx : pos shape ->
  linear_to_index (tt_of shape) o = Ok idx -> 0 <= o < prodZ shape /\ idx = unoff shape o.
Proof.
  intros Hp E. assert (H : 0 <= o < prodZ shape \/ ~ (0 <= o < prodZ shape)) by lia.
  destruct H as [H|H].
  - rewrite linear_to_index_ok in E by assumption. split; [assumption|congruence].
  - rewrite linear_to_index_throw in E by assumption. discriminate.
Qed.

(** *** contains_index *)
Theorem contains_index_ok shape idx : zlen idx = zlen shape ->
  exists b, contains_index (tt_of shape) idx = Ok b /\ (b = true <-> inb shape idx).
Proof.
  intros Hl. unfold contains_index. cbn [tt_of tt_ndim tt_shape]. rewrite Hl, Z.eqb_refl. cbn [negb throw_if].
  match goal with |- context [for_ 0 ?n ?b true] => set (body := b) end.
  destruct (for_inv (fun i b => b = true <-> forall j, 0 <= j < i -> 0 <= zn idx j < zn shape j)
     0 (zlen shape) body true) as (b & E & Hb); [apply zlen_nonneg| | |].
  - split; [intros; lia|reflexivity].
  - intros i b Hi Hb. unfold body. destruct b.
    + rewrite !rd_ok by lia. cbn [bind]. eexists; split; [reflexivity|].
      split.
      * intros Hx. apply negb_true_iff in Hx. apply orb_false_iff in Hx as [C C']. apply Z.ltb_ge in C.
        intros j Hj. destruct (Z.eq_dec j i); [subst; lia|]. apply Hb; [reflexivity|lia].
      * intros Hx. apply negb_true_iff. pose proof (Hx i ltac:(lia)).
        apply orb_false_iff; split; [apply Z.ltb_ge|]; lia.
    + exists false. split; [reflexivity|]. split; [discriminate|]. intros Hx.
      apply Hb. intros; apply Hx; lia.
  - exists b. split; [assumption|]. rewrite Hb, inb_zn. intuition lia.
Qed.

Theorem contains_index_throw shape idx : zlen idx <> zlen shape ->
  contains_index (tt_of shape) idx = Throw "Invalid dimensionality".
Proof.
  intros Hl. unfold contains_index. cbn [tt_of tt_ndim]. destruct (Z.eqb_spec (zlen idx) (zlen shape)); [contradiction|reflexivity].
Qed.

(** ** TensorTraits *)

Definition tn_of (shape base : list Z) : TensorTraits :=
  mkTNT (tt_of shape) base (tt_of (gridZ shape base))
        (map2 (fun s b => s - ((s + b - 1) / b - 1) * b) shape base).

Lemma get_grid_shape_ok shape base : zlen base = zlen shape -> pos shape -> pos base ->
  get_grid_shape (zlen shape) shape base = Ok (gridZ shape base).
Proof.
  intros Hl Hs Hb. unfold get_grid_shape.
  match goal with |- for_ 0 ?n ?b _ = _ => set (body := b) end.
  destruct (for_inv (fun i g => zlen g = zlen shape /\ forall j, 0 <= j < i -> zn g j = (zn shape j + zn base j - 1) / zn base j)
    0 (zlen shape) body (zrep (zlen shape) 0)) as (g & E & Lg & Vg); [apply zlen_nonneg| | |].
  - split; [apply zlen_zrep, zlen_nonneg|intros; lia].
  - intros i g Hi (Lg & Vg). unfold body. rewrite !rd_ok by lia. cbn [bind].
    assert (0 < zn shape i) by (apply pos_zn; auto; lia). assert (0 < zn base i) by (apply pos_zn; auto; lia).
    rewrite cdiv_ok by lia. cbn [bind].
    destruct (wr_ok g i ((zn shape i - 1) / zn base i + 1)) as (g' & E & Lg' & Vg'); [lia|]. rewrite E.
    eexists; split; [reflexivity|]. split; [lia|]. intros j Hj. rewrite Vg' by lia.
    destruct (Z.eqb_spec j i); [subst j|apply Vg; lia].
    replace (zn shape i + zn base i - 1) with (1 * zn base i + (zn shape i - 1)) by lia.
    rewrite Z.div_add_l by lia. lia.
  - rewrite E. f_equal.
    assert (Hgl : zlen (gridZ shape base) = zlen shape) by (unfold zlen in *; rewrite gridZ_length; lia).
    apply list_ext; [lia|]. intros i Hi. rewrite Vg by lia.
    unfold gridZ. rewrite zn_map2 by lia. reflexivity.
Qed.

Lemma zlen_gridZ shape base : zlen base = zlen shape -> zlen (gridZ shape base) = zlen shape.
Proof. intros. unfold zlen in *. rewrite gridZ_length; lia. Qed.

Lemma zlen_map2 {A B C} (f : A -> B -> C) l1 l2 : zlen l1 = zlen l2 -> zlen (map2 f l1 l2) = zlen l1.
Proof. intros. unfold zlen in *. rewrite map2_length; lia. Qed.

Lemma get_leftover_shape_ok shape base : zlen base = zlen shape ->
  get_leftover_shape (zlen shape) shape base (gridZ shape base)
  = Ok (map2 (fun s b => s - ((s + b - 1) / b - 1) * b) shape base).
Proof.
  intros Hl. unfold get_leftover_shape.
  match goal with |- for_ 0 ?n ?b _ = _ => set (body := b) end.
  destruct (for_inv (fun i g => zlen g = zlen shape /\ forall j, 0 <= j < i -> zn g j = zn shape j - (zn (gridZ shape base) j - 1) * zn base j)
    0 (zlen shape) body (zrep (zlen shape) 0)) as (g & E & Lg & Vg); [apply zlen_nonneg| | |].
  - split; [apply zlen_zrep, zlen_nonneg|intros; lia].
  - intros i g Hi (Lg & Vg). unfold body. pose proof (zlen_gridZ shape base Hl).
    rewrite !rd_ok by lia. cbn [bind].
    destruct (wr_ok g i (zn shape i - (zn (gridZ shape base) i - 1) * zn base i)) as (g' & E & Lg' & Vg'); [lia|]. rewrite E.
    eexists; split; [reflexivity|]. split; [lia|]. intros j Hj. rewrite Vg' by lia.
    destruct (Z.eqb_spec j i); [subst j; reflexivity|apply Vg; lia].
  - rewrite E. f_equal. apply list_ext; [rewrite zlen_map2; lia|]. intros i Hi. rewrite Vg by lia.
    rewrite zn_map2 by lia. unfold gridZ. rewrite zn_map2 by lia. reflexivity.
Qed.

Lemma get_basetile_shape_ok (shape base : list Z) : zlen base = zlen shape -> pos base ->
  get_basetile_shape (zlen shape) base = Ok base.
Proof.
  intros Hl Hb. unfold get_basetile_shape. rewrite Hl, Z.eqb_refl. cbn [negb throw_if].
  rewrite for_check_ok; [reflexivity|]. intros i Hi. rewrite rd_ok by lia. cbn [bind].
  pose proof (proj1 (pos_zn base) Hb i ltac:(lia)). unfold throw_if.
  destruct (Z.leb_spec (zn base i) 0); [lia|reflexivity].
Qed.

Theorem TensorTraits_new_ok shape base : zlen base = zlen shape -> pos shape -> pos base ->
  TensorTraits_new shape base = Ok (tn_of shape base).
Proof.
  intros Hl Hs Hb. unfold TensorTraits_new. rewrite TileTraits_new_ok by assumption. cbn [bind tt_of tt_ndim tt_shape].
  rewrite get_basetile_shape_ok by assumption. cbn [bind].
  rewrite get_grid_shape_ok by assumption. cbn [bind].
  rewrite TileTraits_new_ok by (apply gridZ_pos; auto; unfold zlen in *; lia). cbn [bind tt_of tt_shape].
  rewrite get_leftover_shape_ok by assumption. reflexivity.
Qed.

Theorem TensorTraits_new_throw shape base : ~ (zlen base = zlen shape /\ pos shape /\ pos base) ->
  exists m, TensorTraits_new shape base = Throw m.
Proof.
  intros H. unfold TensorTraits_new. destruct (pos_dec shape) as [P|P].
  2:{ rewrite TileTraits_new_throw by assumption. eexists; reflexivity. }
  rewrite TileTraits_new_ok by assumption. cbn [bind tt_of tt_ndim tt_shape]. unfold get_basetile_shape.
  destruct (Z.eqb_spec (zlen base) (zlen shape)) as [El|El]; cbn [negb throw_if]; [|eexists; reflexivity].
  assert (Pb : ~ pos base) by tauto.
  rewrite (for_check_throw _ _ _ "basetile_shape[i] <= 0"); [eexists; reflexivity| |].
  - intros i Hi. rewrite rd_ok by lia. cbn [bind]. unfold throw_if. destruct (zn base i <=? 0); auto.
  - destruct (Exists_dec (fun s => s <= 0) base) as [E|E]; [intros; apply Z_le_dec| |].
    + apply Exists_nth in E as (n & d & Hn & E). exists (Z.of_nat n). unfold zlen in *. split; [lia|].
      rewrite rd_ok by (unfold zlen; lia). cbn [bind]. unfold zn. rewrite Nat2Z.id.
      rewrite (nth_indep _ dflt d) by assumption. unfold throw_if.
      destruct (Z.leb_spec (nth n base d) 0); [reflexivity|lia].
    + exfalso. apply Pb. apply Forall_Exists_neg in E.
      eapply Forall_impl; [|exact E]. intros a Ha; simpl in Ha. lia.
Qed.

Lemma TensorTraits_new_inv shape base t : TensorTraits_new shape base = Ok t ->
  zlen base = zlen shape /\ pos shape /\ pos base /\ t = tn_of shape base.
Proof.
  intros E.
  assert (D : (zlen base = zlen shape /\ pos shape /\ pos base) \/ ~ (zlen base = zlen shape /\ pos shape /\ pos base)).
  { destruct (Z.eq_dec (zlen base) (zlen shape)), (pos_dec shape), (pos_dec base); tauto. }
  destruct D as [(A & B & C)|D].
  - rewrite TensorTraits_new_ok in E by assumption. repeat split; auto; congruence.
  - destruct (TensorTraits_new_throw _ _ D) as (m & E'). congruence.
Qed.

Lemma zn_tshape shape base tidx i : zlen base = zlen shape -> zlen tidx = zlen shape -> 0 <= i < zlen shape ->
  zn (tshape shape base tidx) i = Z.min (zn base i) (zn shape i - zn tidx i * zn base i).
Proof.
  unfold zn, zlen. intros Hb Ht Hi. assert (Hn : (Z.to_nat i < List.length shape)%nat) by lia. clear Hi.
  revert base tidx Hb Ht Hn. generalize (Z.to_nat i) as n.
  induction shape; simpl; intros n base tidx Hb Ht Hn; [lia|].
  destruct base, tidx; simpl in *; try lia. destruct n; [reflexivity|]. apply IHshape; lia.
Qed.

Lemma zlen_tshape shape base tidx : zlen base = zlen shape -> zlen tidx = zlen shape -> zlen (tshape shape base tidx) = zlen shape.
Proof. unfold zlen. intros. rewrite tshape_length; lia. Qed.

Theorem get_tile_shape_ok shape base tidx : zlen base = zlen shape -> pos shape -> pos base ->
  inb (gridZ shape base) tidx ->
  get_tile_shape (tn_of shape base) tidx = Ok (tshape shape base tidx).
Proof.
  intros Hl Hs Hb Hin. pose proof (proj1 (inb_zn _ _) Hin) as (Hg & Hi). rewrite zlen_gridZ in * by assumption.
  unfold get_tile_shape, tn_ndim. cbn [tn_of tn_tile tt_of tt_ndim tn_base tn_grid tn_leftover tt_shape].
  rewrite <- Hg, Z.eqb_refl. cbn [negb throw_if].
  match goal with |- for_ 0 ?n ?b _ = _ => set (body := b) end.
  destruct (for_inv (fun i g => zlen g = zlen shape /\
      (forall j, 0 <= j < i -> zn g j = zn (tshape shape base tidx) j) /\
      (forall j, i <= j < zlen shape -> zn g j = zn base j))
    0 (zlen shape) body base) as (g & E & Lg & Vg & _); [apply zlen_nonneg| | |].
  - split; [lia|]. split; [intros; lia|reflexivity].
  - intros i g Hii (Lg & Vg & Wg). unfold body. pose proof (zlen_gridZ shape base Hl).
    rewrite !rd_ok by lia. cbn [bind]. pose proof (Hi i Hii) as Hti.
    unfold throw_if. replace ((zn tidx i <? 0) || (zn tidx i >=? zn (gridZ shape base) i)) with false
      by (symmetry; apply orb_false_iff; split; [apply Z.ltb_ge|]; lia).
    assert (Hsi : 0 < zn shape i) by (apply pos_zn; auto; lia).
    assert (Hbi : 0 < zn base i) by (apply pos_zn; auto; lia).
    assert (Hgi : zn (gridZ shape base) i = (zn shape i + zn base i - 1) / zn base i)
      by (unfold gridZ; rewrite zn_map2 by lia; reflexivity).
    assert (Hbn : zn base i <> 0) by lia.
    pose proof (Z.div_mod (zn shape i + zn base i - 1) (zn base i) Hbn) as Hdm.
    pose proof (Z.mod_pos_bound (zn shape i + zn base i - 1) (zn base i) Hbi) as Hmb.
    rewrite <- Hgi in Hdm.
    destruct (Z.eqb_spec (zn (gridZ shape base) i - zn tidx i) 1) as [El|El].
    + rewrite rd_ok by (rewrite zlen_map2; lia). cbn [bind]. rewrite zn_map2 by lia. rewrite <- Hgi.
      destruct (wr_ok g i (zn shape i - (zn (gridZ shape base) i - 1) * zn base i)) as (g' & E & Lg' & Vg'); [lia|].
      rewrite E. eexists; split; [reflexivity|]. split; [lia|]. split.
      * intros j Hj. rewrite Vg' by lia. destruct (Z.eqb_spec j i); [|apply Vg; lia]. subst j.
        rewrite zn_tshape by lia. replace (zn tidx i) with (zn (gridZ shape base) i - 1) by lia. nia.
      * intros j Hj. rewrite Vg' by lia. destruct (Z.eqb_spec j i); [lia|]. apply Wg; lia.
    + eexists; split; [reflexivity|]. split; [lia|]. split.
      * intros j Hj. destruct (Z.eq_dec j i); [|apply Vg; lia]. subst j.
        rewrite zn_tshape by lia. rewrite Wg by lia. nia.
      * intros j Hj. apply Wg; lia.
  - rewrite E. f_equal. apply list_ext; [rewrite zlen_tshape; lia|]. intros i Hii. apply Vg; lia.
Qed.

Theorem get_tile_shape_throw shape base tidx : zlen base = zlen shape -> pos shape -> pos base ->
  ~ inb (gridZ shape base) tidx ->
  exists m, get_tile_shape (tn_of shape base) tidx = Throw m.
Proof.
  intros Hl Hs Hb Hin.
  unfold get_tile_shape, tn_ndim. cbn [tn_of tn_tile tt_of tt_ndim tn_base tn_grid tn_leftover tt_shape].
  destruct (Z.eqb_spec (zlen tidx) (zlen shape)) as [Et|Et]; cbn [negb throw_if]; [|eauto].
  match goal with |- exists m, for_ 0 ?n ?b _ = _ => set (body := b) end.
  pose proof (zlen_gridZ shape base Hl) as Hg.
  assert (Hbody : forall i (s : list Z), 0 <= i < zlen shape -> zlen s = zlen shape ->
     (~ (0 <= zn tidx i < zn (gridZ shape base) i) /\ body i s = Throw "Index out of bounds") \/
     (0 <= zn tidx i < zn (gridZ shape base) i /\ exists s', body i s = Ok s' /\ zlen s' = zlen shape)).
  { intros i s Hi Ls. unfold body. rewrite !rd_ok by lia. cbn [bind]. unfold throw_if.
    destruct ((zn tidx i <? 0) || (zn tidx i >=? zn (gridZ shape base) i)) eqn:C.
    - left. split; [|reflexivity]. apply orb_true_iff in C. destruct C as [C|C]; [apply Z.ltb_lt in C|]; lia.
    - right. apply orb_false_iff in C as [C C']. apply Z.ltb_ge in C. split; [lia|].
      destruct (Z.eqb_spec (zn (gridZ shape base) i - zn tidx i) 1); [|eauto].
      rewrite rd_ok by (rewrite zlen_map2; lia). cbn [bind].
      destruct (wr_ok s i (zn (map2 (fun s0 b => s0 - ((s0 + b - 1) / b - 1) * b) shape base) i)) as (s' & E & Ls' & _); [lia|].
      exists s'. split; [assumption|lia]. }
  assert (Hbad : exists i, 0 <= i < zlen shape /\ ~ (0 <= zn tidx i < zn (gridZ shape base) i)).
  { assert (D : forall n, (exists i, 0 <= i < Z.of_nat n /\ ~ (0 <= zn tidx i < zn (gridZ shape base) i)) \/
                (forall i, 0 <= i < Z.of_nat n -> 0 <= zn tidx i < zn (gridZ shape base) i)).
    { induction n as [|n [(i & Hi & Hx)|IH]]; [right; intros; lia|left; exists i; split; [lia|assumption]|].
      destruct (Z_le_dec 0 (zn tidx (Z.of_nat n))), (Z_lt_dec (zn tidx (Z.of_nat n)) (zn (gridZ shape base) (Z.of_nat n)));
        [right|left|left|left].
      - intros i Hi. destruct (Z.eq_dec i (Z.of_nat n)); [subst; lia|]. apply IH; lia.
      - exists (Z.of_nat n); lia.
      - exists (Z.of_nat n); lia.
      - exists (Z.of_nat n); lia. }
    destruct (D (Z.to_nat (zlen shape))) as [(i & Hi & Hx)|D'].
    - exists i. pose proof (zlen_nonneg shape). split; [lia|assumption].
    - exfalso. apply Hin. apply inb_zn. split; [lia|]. intros i Hi. apply D'. lia. }
  destruct Hbad as (i & Hi & Hx). unfold for_.
  assert (G : forall n lo (s : list Z), Z.of_nat n = zlen shape - lo -> 0 <= lo <= i -> zlen s = zlen shape ->
     exists m, for_nat n lo body s = Throw m).
  { induction n; intros lo s Hn Hlo Ls; [lia|]. simpl.
    destruct (Hbody lo s ltac:(lia) Ls) as [(_ & E)|(Hok & s' & E & Ls')]; rewrite E; cbn [bind]; [eauto|].
    apply IHn; [lia| |assumption]. destruct (Z.eq_dec lo i); [subst; contradiction|lia]. }
  apply (G _ 0 base); lia.
Qed.

(** ** Tensor *)

(** What the constructor builds: tile i has the traits of grid coordinate i. *)
Definition wf_tensor (t : tensor) : Prop :=
  exists shape base,
    zlen base = zlen shape /\ pos shape /\ pos base /\
    tr t = tn_of shape base /\
    tile_traits t = ztab (prodZ (gridZ shape base)) (fun i => tt_of (tshape shape base (unoff (gridZ shape base) i))) /\
    zlen (tile_handles t) = prodZ (gridZ shape base) /\
    NoDup (tile_handles t).

Lemma for_unfold_ok {S} (f : Z -> S) lo hi body :
  lo <= hi ->
  (forall i, lo <= i < hi -> body i (f i) = Ok (f (i + 1))) -> for_ lo hi body (f lo) = Ok (f hi).
Proof.
  intros Hle Hb. destruct (for_inv (fun i s => s = f i) lo hi body (f lo)) as (s & E & ->); auto.
  intros i s Hi ->. eexists; split; [apply Hb; assumption|reflexivity].
Qed.

Lemma ztab_succ {A} n (f : Z -> A) : 0 <= n -> ztab (n + 1) f = ztab n f ++ [f n].
Proof. intros. unfold ztab. rewrite zrange_succ by lia. rewrite map_app. reflexivity. Qed.

Theorem Tensor_new_ok shape base distr next :
  zlen base = zlen shape -> pos shape -> pos base -> zlen distr = prodZ (gridZ shape base) ->
  let n := prodZ (gridZ shape base) in
  let ttf i := tt_of (tshape shape base (unoff (gridZ shape base) i)) in
  Tensor_new (tn_of shape base) distr next
  = Ok (mkTensor (tn_of shape base) (ztab n ttf) (ztab n (fun i => next + i)) distr,
        ztab n (fun i => (next + i, prodZ (tshape shape base (unoff (gridZ shape base) i))))).
Proof.
  intros Hl Hs Hb Hd n ttf. unfold Tensor_new. cbn [tn_of tn_grid tt_of tt_nelems]. rewrite Hd, Z.eqb_refl.
  cbn [negb throw_if]. fold n.
  assert (Hgp : pos (gridZ shape base)) by (apply gridZ_pos; auto; unfold zlen in *; lia).
  match goal with |- bind (for_ 0 n ?b _) _ = _ => set (body := b) end.
  set (F := fun i => (ztab i ttf, ztab i (fun i => next + i),
        ztab i (fun i => (next + i, prodZ (tshape shape base (unoff (gridZ shape base) i)))))).
  assert (EE : for_ 0 n body ([], [], []) = Ok (F n)); [|rewrite EE; reflexivity].
  apply (for_unfold_ok F 0 n body).
  - unfold n. apply Z.lt_le_incl, prodZ_pos, Hgp.
  - intros i Hi. unfold body, F. change (tn_grid (tn_of shape base)) with (tt_of (gridZ shape base)).
    change (mkTNT (tt_of shape) base (tt_of (gridZ shape base))
       (map2 (fun s b => s - ((s + b - 1) / b - 1) * b) shape base)) with (tn_of shape base).
    rewrite linear_to_index_ok by assumption. cbn [bind].
    assert (Hin : inb (gridZ shape base) (unoff (gridZ shape base) i)) by (apply unoff_inb; assumption).
    rewrite get_tile_shape_ok by assumption. cbn [bind].
    assert (Htp : pos (tshape shape base (unoff (gridZ shape base) i)))
      by (apply tshape_pos; auto; unfold zlen in *; lia).
    rewrite TileTraits_new_ok by assumption. cbn [bind].
    pose proof (prodZ_pos _ Htp). unfold throw_if. cbn [tt_of tt_nelems].
    destruct (Z.eqb_spec (prodZ (tshape shape base (unoff (gridZ shape base) i))) 0); [lia|].
    rewrite !ztab_succ by lia. reflexivity.
Qed.

Theorem Tensor_new_throw traits distr next : zlen distr <> tt_nelems (tn_grid traits) ->
  Tensor_new traits distr next = Throw "Wrong distribution".
Proof.
  intros H. unfold Tensor_new. destruct (Z.eqb_spec (zlen distr) (tt_nelems (tn_grid traits))); [contradiction|reflexivity].
Qed.

Lemma NoDup_ztab_inj {A} n (f : Z -> A) :
  (forall i j, 0 <= i < n -> 0 <= j < n -> f i = f j -> i = j) -> NoDup (ztab n f).
Proof.
  intros Hf. unfold ztab.
  assert (G : forall l, NoDup l -> (forall x, In x l -> 0 <= x < n) -> NoDup (map f l)).
  { induction 1 as [|x l Hx Hn IH]; intros Hin; simpl; constructor.
    - intros Hc. apply in_map_iff in Hc as (y & Ey & Hy).
      assert (y = x) by (apply Hf; [apply Hin; right; assumption|apply Hin; left; reflexivity|assumption]).
      congruence.
    - apply IH. intros; apply Hin; right; assumption. }
  apply G; [apply NoDup_zrange|]. intros x. apply zrange_In.
Qed.

Theorem Tensor_new_wf traits shape base distr next t sizes :
  TensorTraits_new shape base = Ok traits -> Tensor_new traits distr next = Ok (t, sizes) -> wf_tensor t.
Proof.
  intros E1 E2. apply TensorTraits_new_inv in E1 as (Hl & Hs & Hb & ->).
  destruct (Z.eq_dec (zlen distr) (prodZ (gridZ shape base))) as [Hd|Hd].
  - rewrite Tensor_new_ok in E2 by assumption. injection E2 as <- <-.
    assert (Hgp : pos (gridZ shape base)) by (apply gridZ_pos; auto; unfold zlen in *; lia).
    pose proof (prodZ_pos _ Hgp).
    exists shape, base. cbn. repeat split; auto.
    + rewrite zlen_ztab; lia.
    + apply NoDup_ztab_inj. intros; lia.
  - rewrite Tensor_new_throw in E2 by exact Hd. discriminate.
Qed.
