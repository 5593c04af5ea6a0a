(** * Geometry: facts about the vocabulary of [Spec] (no model involved) *)

From Verif Require Import Base Spec.

Lemma prodZ_pos l : pos l -> 0 < prodZ l.
Proof. induction 1; simpl in *; [lia|]. apply Z.mul_pos_pos; assumption. Qed.

Lemma prodZ_app l1 l2 : prodZ (l1 ++ l2) = prodZ l1 * prodZ l2.
Proof. induction l1; simpl; [lia|]. rewrite IHl1. ring. Qed.

Lemma pos_app l1 l2 : pos (l1 ++ l2) <-> pos l1 /\ pos l2.
Proof. apply Forall_app. Qed.

Lemma inb_length shape idx : inb shape idx -> List.length shape = List.length idx.
Proof. induction 1; simpl; auto. Qed.

Lemma inb_zlen shape idx : inb shape idx -> zlen shape = zlen idx.
Proof. intros H. unfold zlen. rewrite (inb_length _ _ H). reflexivity. Qed.

Lemma inb_pos shape idx : inb shape idx -> pos shape.
Proof. induction 1; constructor; [lia|assumption]. Qed.

Lemma off_bound shape idx : inb shape idx -> 0 <= off shape idx < prodZ shape.
Proof. induction 1 as [|s i shape idx Hi H IH]; simpl in *; [lia|]. clear H. nia. Qed.

Lemma unoff_length shape o : List.length (unoff shape o) = List.length shape.
Proof. revert o; induction shape; simpl; auto. Qed.

Lemma unoff_inb shape o : pos shape -> 0 <= o < prodZ shape -> inb shape (unoff shape o).
Proof.
  intros Hp; revert o; induction Hp; simpl; intros o Ho; constructor.
  - apply Z.mod_pos_bound; lia.
  - apply IHHp. split; [apply Z.div_pos; lia|]. apply Z.div_lt_upper_bound; lia.
Qed.

Lemma off_unoff shape o : pos shape -> 0 <= o < prodZ shape -> off shape (unoff shape o) = o.
Proof.
  intros Hp; revert o; induction Hp as [|s l Hs Hp IH]; simpl; intros o Ho; [lia|].
  rewrite IH.
  - pose proof (Z.div_mod o s). lia.
  - split; [apply Z.div_pos; lia|]. apply Z.div_lt_upper_bound; lia.
Qed.

Lemma unoff_off shape idx : inb shape idx -> unoff shape (off shape idx) = idx.
Proof.
  induction 1 as [|s i shape idx Hi H IH]; simpl; [reflexivity|].
  replace (i + s * off shape idx) with (off shape idx * s + i) by ring.
  rewrite Z.div_add_l by lia. rewrite (Z.div_small i s) by lia.
  rewrite Z.add_0_r, IH. f_equal.
  rewrite Z.add_comm, Z.mod_add by lia. apply Z.mod_small; lia.
Qed.

Lemma off_inj shape i1 i2 : inb shape i1 -> inb shape i2 -> off shape i1 = off shape i2 -> i1 = i2.
Proof. intros H1 H2 E. rewrite <- (unoff_off _ _ H1), <- (unoff_off _ _ H2), E. reflexivity. Qed.

Lemma off_app s1 s2 i1 i2 :
  List.length s1 = List.length i1 -> off (s1 ++ s2) (i1 ++ i2) = off s1 i1 + prodZ s1 * off s2 i2.
Proof.
  revert i1; induction s1; destruct i1; simpl; intros Hl; try lia.
  rewrite IHs1 by lia. ring.
Qed.

Lemma inb_app s1 s2 i1 i2 : inb s1 i1 -> inb s2 i2 -> inb (s1 ++ s2) (i1 ++ i2).
Proof. intros; apply Forall2_app; assumption. Qed.

Lemma inb_app_inv_l s1 s2 idx :
  inb (s1 ++ s2) idx -> exists i1 i2, idx = i1 ++ i2 /\ inb s1 i1 /\ inb s2 i2.
Proof.
  intros H. apply Forall2_app_inv_l in H as (i1 & i2 & H1 & H2 & E). exists i1, i2. auto.
Qed.

Lemma inb_cons s shape i idx : inb (s :: shape) (i :: idx) <-> 0 <= i < s /\ inb shape idx.
Proof. split; intros H; [inversion H; auto|]. destruct H; constructor; assumption. Qed.

Lemma map2_length {A B C} (f : A -> B -> C) l1 l2 :
  List.length l1 = List.length l2 -> List.length (map2 f l1 l2) = List.length l1.
Proof. revert l2; induction l1; destruct l2; simpl; intros; try lia. rewrite IHl1; lia. Qed.

Lemma zn_map2 {A B C} `{Dflt A} `{Dflt B} `{Dflt C} (f : A -> B -> C) l1 l2 i :
  zlen l1 = zlen l2 -> 0 <= i < zlen l1 -> zn (map2 f l1 l2) i = f (zn l1 i) (zn l2 i).
Proof.
  unfold zn, zlen. intros Hl Hi.
  assert (Hn : (Z.to_nat i < List.length l1)%nat) by lia. clear Hi.
  revert l2 Hl Hn. generalize (Z.to_nat i) as n. induction l1; simpl; intros n l2 Hl Hn; [lia|].
  destruct l2; simpl in *; [lia|]. destruct n; [reflexivity|]. apply IHl1; lia.
Qed.

(** ** Tiles *)

(** One dimension: element i of an extent-s array lies in tile i/b at i mod b. *)
Lemma tile1 s b i : 0 < b -> 0 <= i < s ->
  0 <= i / b < (s + b - 1) / b /\ 0 <= i mod b < Z.min b (s - i / b * b).
Proof.
  intros Hb Hi. pose proof (Z.div_mod i b ltac:(lia)). pose proof (Z.mod_pos_bound i b Hb).
  split.
  - split; [apply Z.div_pos; lia|]. apply Z.div_lt_upper_bound; [lia|].
    pose proof (Z.div_mod (s + b - 1) b ltac:(lia)).
    pose proof (Z.mod_pos_bound (s + b - 1) b Hb). nia.
  - split; [lia|]. apply Z.min_glb_lt; lia.
Qed.

Lemma tile1_inv s b t e : 0 < b -> 0 <= t < (s + b - 1) / b -> 0 <= e < Z.min b (s - t * b) ->
  0 <= t * b + e < s /\ (t * b + e) / b = t /\ (t * b + e) mod b = e.
Proof.
  intros Hb Ht He.
  repeat split; try nia.
  - rewrite Z.div_add_l by lia. rewrite Z.div_small by lia. lia.
  - rewrite Z.add_comm, Z.mod_add by lia. apply Z.mod_small. lia.
Qed.

Lemma tile1_pos s b t : 0 < b -> 0 < s -> 0 <= t < (s + b - 1) / b -> 0 < Z.min b (s - t * b).
Proof.
  intros Hb Hs Ht. apply Z.min_glb_lt; [lia|].
  pose proof (Z.div_mod (s + b - 1) b ltac:(lia)).
  pose proof (Z.mod_pos_bound (s + b - 1) b Hb). nia.
Qed.

Lemma grid1_pos s b : 0 < b -> 0 < s -> 0 < (s + b - 1) / b.
Proof. intros. apply Z.div_str_pos. lia. Qed.

Lemma gridZ_pos shape base : List.length shape = List.length base -> pos shape -> pos base -> pos (gridZ shape base).
Proof.
  intros Hl Hs; revert base Hl; induction Hs; destruct base; simpl; intros Hl Hb; try lia; [constructor|].
  inversion Hb; subst. constructor; [apply grid1_pos; lia|]. apply IHHs; auto.
Qed.

Lemma gridZ_length shape base : List.length shape = List.length base -> List.length (gridZ shape base) = List.length shape.
Proof. apply map2_length. Qed.

Lemma tile_of_inb shape base idx : List.length shape = List.length base -> pos base ->
  inb shape idx -> inb (gridZ shape base) (tile_of base idx).
Proof.
  intros Hl Hb H; revert base Hl Hb; induction H; destruct base; simpl; intros Hl Hb; try lia; [constructor|].
  inversion Hb; subst. constructor; [apply tile1; lia|]. apply IHForall2; auto.
Qed.

Lemma in_tile_inb shape base idx : List.length shape = List.length base -> pos base ->
  inb shape idx -> inb (tshape shape base (tile_of base idx)) (in_tile base idx).
Proof.
  intros Hl Hb H; revert base Hl Hb; induction H; destruct base; simpl; intros Hl Hb; try lia; [constructor|].
  inversion Hb; subst. constructor; [apply tile1; lia|]. apply IHForall2; auto.
Qed.

Lemma tshape_length shape base tidx :
  List.length shape = List.length base -> List.length shape = List.length tidx ->
  List.length (tshape shape base tidx) = List.length shape.
Proof.
  revert base tidx; induction shape; destruct base, tidx; simpl; intros; try lia. rewrite IHshape; lia.
Qed.

Lemma tshape_pos shape base tidx : List.length shape = List.length base -> pos shape -> pos base ->
  inb (gridZ shape base) tidx -> pos (tshape shape base tidx).
Proof.
  intros Hl Hs; revert base tidx Hl; induction Hs; destruct base; simpl; intros tidx Hl Hb Hin; try lia.
  - constructor.
  - inversion Hb; subst. inversion Hin; subst. constructor; [apply tile1_pos; lia|]. apply IHHs; auto.
Qed.

Lemma glob_inv shape base tidx e : List.length shape = List.length base -> pos base ->
  inb (gridZ shape base) tidx -> inb (tshape shape base tidx) e ->
  inb shape (glob base tidx e) /\ tile_of base (glob base tidx e) = tidx /\ in_tile base (glob base tidx e) = e.
Proof.
  revert base tidx e; induction shape as [|s shape IH]; destruct base as [|b base]; simpl; intros tidx e Hl Hb Ht He; try lia.
  - inversion Ht; subst. inversion He; subst. repeat constructor.
  - inversion Hb; subst. inversion Ht; subst. inversion He; subst. simpl.
    destruct (IH base l' l'0) as (A & B & C); auto.
    destruct (tile1_inv s b y y0) as (D & E & F); auto.
    unfold tile_of, in_tile in *. simpl. rewrite E, F, B, C. repeat split; auto.
    constructor; auto.
Qed.

Lemma glob_of shape base idx : List.length shape = List.length base -> pos base ->
  inb shape idx -> glob base (tile_of base idx) (in_tile base idx) = idx.
Proof.
  intros Hl Hb H; revert base Hl Hb; induction H; destruct base as [|b base]; simpl; intros Hl Hb; try lia; [reflexivity|].
  inversion Hb; subst. unfold tile_of, in_tile in *. simpl. rewrite IHForall2 by auto. f_equal.
  pose proof (Z.div_mod y b). lia.
Qed.

(** ** Sublists by position *)
Lemma firstn_skipn_zn {A} `{Dflt A} (l : list A) a :
  0 <= a < zlen l -> l = firstn (Z.to_nat a) l ++ zn l a :: skipn (Z.to_nat (a + 1)) l.
Proof.
  intros Ha. unfold zn, zlen in *. rewrite <- (firstn_skipn (Z.to_nat a) l) at 1. f_equal.
  replace (Z.to_nat (a + 1)) with (S (Z.to_nat a)) by lia.
  assert (Hn : (Z.to_nat a < List.length l)%nat) by lia. clear Ha. revert Hn.
  generalize (Z.to_nat a) as n. intros n. revert l. induction n; intros l Hn; destruct l; simpl in *; try lia; [reflexivity|].
  apply IHn. lia.
Qed.
