(** * Dropping, inserting and selecting axes (specification vocabulary and facts) *)
From Verif Require Import Base Spec Geometry.

(** Coordinates without axis [a]; with [x] inserted as axis [a]. *)
Definition del (a : Z) (l : list Z) : list Z := firstn (Z.to_nat a) l ++ skipn (Z.to_nat a + 1) l.
Definition ins (a x : Z) (l : list Z) : list Z := firstn (Z.to_nat a) l ++ x :: skipn (Z.to_nat a) l.
(** Axis [a] followed by the last [b] axes. *)
Definition fib (a b : Z) (l : list Z) : list Z := zn l a :: skipn (Z.to_nat (zlen l - b)) l.

(** *** Decompositions *)
Lemma firstn_app_len {A} n (l1 l2 : list A) : List.length l1 = n -> firstn n (l1 ++ l2) = l1.
Proof. intros <-. rewrite firstn_app, firstn_all, Nat.sub_diag. simpl. apply app_nil_r. Qed.
Lemma skipn_app_len {A} n (l1 l2 : list A) : List.length l1 = n -> skipn n (l1 ++ l2) = l2.
Proof. intros <-. rewrite skipn_app, skipn_all, Nat.sub_diag. reflexivity. Qed.

Lemma zlen_nat {A} (l : list A) n : zlen l = Z.of_nat n -> List.length l = n.
Proof. unfold zlen. lia. Qed.

Lemma split_at {A} (l : list A) a : 0 <= a < zlen l ->
  exists l1 x l2, l = l1 ++ x :: l2 /\ zlen l1 = a.
Proof.
  intros Ha. assert (Hn : (Z.to_nat a < List.length l)%nat) by (unfold zlen in Ha; lia).
  destruct (nth_error l (Z.to_nat a)) as [x|] eqn:E.
  - apply nth_error_split in E as (l1 & l2 & -> & Hl). exists l1, x, l2. split; [reflexivity|]. unfold zlen. lia.
  - apply nth_error_None in E. lia.
Qed.

Lemma split_le {A} (l : list A) a : 0 <= a <= zlen l -> exists l1 l2, l = l1 ++ l2 /\ zlen l1 = a.
Proof.
  intros Ha. exists (firstn (Z.to_nat a) l), (skipn (Z.to_nat a) l). split; [symmetry; apply firstn_skipn|].
  unfold zlen in *. rewrite firstn_length. lia.
Qed.

Lemma del_app a l1 x l2 : zlen l1 = a -> del a (l1 ++ x :: l2) = l1 ++ l2.
Proof.
  intros Hl. assert (Hn : List.length l1 = Z.to_nat a) by (unfold zlen in Hl; lia).
  unfold del. rewrite firstn_app_len by assumption.
  replace (l1 ++ x :: l2) with ((l1 ++ [x]) ++ l2) by (rewrite <- app_assoc; reflexivity).
  rewrite skipn_app_len; [reflexivity|]. rewrite app_length. simpl. lia.
Qed.
Lemma ins_app a x l1 l2 : zlen l1 = a -> ins a x (l1 ++ l2) = l1 ++ x :: l2.
Proof.
  intros Hl. assert (Hn : List.length l1 = Z.to_nat a) by (unfold zlen in Hl; lia).
  unfold ins. rewrite firstn_app_len, skipn_app_len by assumption. reflexivity.
Qed.
Lemma zn_mid {A} `{Dflt A} (l1 : list A) x l2 a : zlen l1 = a -> zn (l1 ++ x :: l2) a = x.
Proof.
  intros <-. unfold zn, zlen. rewrite Nat2Z.id. rewrite app_nth2 by lia. rewrite Nat.sub_diag. reflexivity.
Qed.
Lemma zn_app1 {A} `{Dflt A} (l1 l2 : list A) i : 0 <= i < zlen l1 -> zn (l1 ++ l2) i = zn l1 i.
Proof. unfold zn, zlen. intros Hi. apply app_nth1. lia. Qed.
Lemma zn_app2 {A} `{Dflt A} (l1 l2 : list A) i : zlen l1 <= i -> zn (l1 ++ l2) i = zn l2 (i - zlen l1).
Proof. unfold zn, zlen. intros Hi. rewrite app_nth2 by lia. f_equal. lia. Qed.
Lemma zn_cons0 {A} `{Dflt A} (x : A) l : zn (x :: l) 0 = x.
Proof. reflexivity. Qed.
Lemma zn_consS {A} `{Dflt A} (x : A) l i : 0 < i -> zn (x :: l) i = zn l (i - 1).
Proof. intros Hi. unfold zn. replace (Z.to_nat i) with (S (Z.to_nat (i - 1))) by lia. reflexivity. Qed.
Lemma fib_app a b l1 x l2 l3 : zlen l1 = a -> zlen l3 = b -> fib a b (l1 ++ x :: l2 ++ l3) = x :: l3.
Proof.
  intros H1 H3. unfold fib. f_equal; [apply zn_mid; assumption|].
  replace (l1 ++ x :: l2 ++ l3) with ((l1 ++ x :: l2) ++ l3) by (rewrite <- app_assoc; reflexivity).
  apply skipn_app_len. rewrite zlen_app. unfold zlen in *. lia.
Qed.

Lemma zlen_del a l : 0 <= a < zlen l -> zlen (del a l) = zlen l - 1.
Proof.
  intros Ha. destruct (split_at l a Ha) as (l1 & x & l2 & -> & Hl). rewrite del_app by assumption.
  rewrite !zlen_app, zlen_cons. lia.
Qed.
Lemma zlen_ins a x l : 0 <= a <= zlen l -> zlen (ins a x l) = zlen l + 1.
Proof.
  intros Ha. destruct (split_le l a Ha) as (l1 & l2 & -> & Hl). rewrite ins_app by assumption.
  rewrite !zlen_app, zlen_cons. lia.
Qed.
Lemma del_ins a x l : 0 <= a <= zlen l -> del a (ins a x l) = l.
Proof.
  intros Ha. destruct (split_le l a Ha) as (l1 & l2 & -> & Hl).
  rewrite ins_app, del_app by assumption. reflexivity.
Qed.
Lemma ins_del a l : 0 <= a < zlen l -> ins a (zn l a) (del a l) = l.
Proof.
  intros Ha. destruct (split_at l a Ha) as (l1 & x & l2 & -> & Hl).
  rewrite del_app, zn_mid, ins_app by assumption. reflexivity.
Qed.
Lemma zn_ins a x l : 0 <= a <= zlen l -> zn (ins a x l) a = x.
Proof.
  intros Ha. destruct (split_le l a Ha) as (l1 & l2 & -> & Hl).
  rewrite ins_app, zn_mid by assumption. reflexivity.
Qed.

(** *** Geometry of concatenations *)
Lemma map2_app {A B C} (f : A -> B -> C) l1 l2 k1 k2 : List.length l1 = List.length k1 ->
  map2 f (l1 ++ l2) (k1 ++ k2) = map2 f l1 k1 ++ map2 f l2 k2.
Proof. revert k1; induction l1; destruct k1; simpl; intros E; try lia; [reflexivity|]. rewrite IHl1 by lia. reflexivity. Qed.
Lemma gridZ_app s1 s2 b1 b2 : List.length s1 = List.length b1 -> gridZ (s1 ++ s2) (b1 ++ b2) = gridZ s1 b1 ++ gridZ s2 b2.
Proof. apply map2_app. Qed.
Lemma tile_of_app b1 b2 i1 i2 : List.length b1 = List.length i1 -> tile_of (b1 ++ b2) (i1 ++ i2) = tile_of b1 i1 ++ tile_of b2 i2.
Proof. apply map2_app. Qed.
Lemma in_tile_app b1 b2 i1 i2 : List.length b1 = List.length i1 -> in_tile (b1 ++ b2) (i1 ++ i2) = in_tile b1 i1 ++ in_tile b2 i2.
Proof. apply map2_app. Qed.
Lemma tshape_app s1 s2 b1 b2 t1 t2 : List.length s1 = List.length b1 -> List.length s1 = List.length t1 ->
  tshape (s1 ++ s2) (b1 ++ b2) (t1 ++ t2) = tshape s1 b1 t1 ++ tshape s2 b2 t2.
Proof.
  revert b1 t1; induction s1; destruct b1, t1; simpl; intros E1 E2; try lia; [reflexivity|].
  rewrite IHs1 by lia. reflexivity.
Qed.
Lemma glob_app b1 b2 t1 t2 e1 e2 : List.length b1 = List.length t1 -> List.length b1 = List.length e1 ->
  glob (b1 ++ b2) (t1 ++ t2) (e1 ++ e2) = glob b1 t1 e1 ++ glob b2 t2 e2.
Proof.
  revert t1 e1; induction b1; destruct t1, e1; simpl; intros E1 E2; try lia; [reflexivity|].
  rewrite IHb1 by lia. reflexivity.
Qed.

Lemma inb_app_inv s1 s2 i1 i2 : List.length s1 = List.length i1 -> inb (s1 ++ s2) (i1 ++ i2) -> inb s1 i1 /\ inb s2 i2.
Proof.
  revert i1; induction s1; destruct i1; simpl; intros E H; try lia; [split; [constructor|assumption]|].
  inversion H; subst. destruct (IHs1 i1) as [G1 G2]; auto. split; [constructor|]; assumption.
Qed.

(** Splitting a coordinate along a split of the shape. *)
Lemma inb_split s1 k s2 idx : inb (s1 ++ k :: s2) idx ->
  exists i1 l i2, idx = i1 ++ l :: i2 /\ zlen i1 = zlen s1 /\ inb s1 i1 /\ 0 <= l < k /\ inb s2 i2.
Proof.
  intros H. apply inb_app_inv_l in H as (i1 & i2 & -> & H1 & H2). inversion H2; subst.
  exists i1, y, l'. repeat split; try tauto; try assumption. symmetry. apply inb_zlen. assumption.
Qed.

Lemma inb_del a shape idx : 0 <= a < zlen shape -> inb shape idx -> inb (del a shape) (del a idx).
Proof.
  intros Ha Hi. destruct (split_at shape a Ha) as (s1 & k & s2 & -> & Hl).
  apply inb_split in Hi as (i1 & l & i2 & -> & Hl1 & H1 & H2 & H3).
  rewrite !del_app by congruence. apply inb_app; assumption.
Qed.
Lemma inb_ins a shape x idx : 0 <= a < zlen shape -> 0 <= x < zn shape a -> inb (del a shape) idx -> inb shape (ins a x idx).
Proof.
  intros Ha Hx Hi. destruct (split_at shape a Ha) as (s1 & k & s2 & -> & Hl).
  rewrite del_app in Hi by assumption. apply inb_app_inv_l in Hi as (i1 & i2 & -> & H1 & H2).
  rewrite ins_app by (rewrite <- (inb_zlen _ _ H1); assumption). rewrite zn_mid in Hx by assumption.
  apply inb_app; [assumption|]. constructor; assumption.
Qed.
Lemma inb_zn shape idx a : inb shape idx -> 0 <= a < zlen shape -> 0 <= zn idx a < zn shape a.
Proof.
  intros Hi Ha. destruct (split_at shape a Ha) as (s1 & k & s2 & -> & Hl).
  apply inb_split in Hi as (i1 & l & i2 & -> & Hl1 & H1 & H2 & H3). rewrite !zn_mid by congruence. assumption.
Qed.

(** The three-dimensional view of an array around axis [a]. *)
Definition dim3 (a : Z) (sh : list Z) : list Z :=
  [prodZ (firstn (Z.to_nat a) sh); zn sh a; prodZ (skipn (Z.to_nat a + 1) sh)].
Definition coo3 (a : Z) (sh e : list Z) : list Z :=
  [off (firstn (Z.to_nat a) sh) (firstn (Z.to_nat a) e); zn e a;
   off (skipn (Z.to_nat a + 1) sh) (skipn (Z.to_nat a + 1) e)].

Lemma firstn_mid a (s1 : list Z) k s2 : zlen s1 = a -> firstn (Z.to_nat a) (s1 ++ k :: s2) = s1.
Proof. intros <-. apply firstn_app_len. unfold zlen. lia. Qed.
Lemma skipn_mid a (s1 : list Z) k s2 : zlen s1 = a -> skipn (Z.to_nat a + 1) (s1 ++ k :: s2) = s2.
Proof.
  intros <-. replace (s1 ++ k :: s2) with ((s1 ++ [k]) ++ s2) by (rewrite <- app_assoc; reflexivity).
  apply skipn_app_len. rewrite app_length. unfold zlen. simpl. lia.
Qed.

Lemma dim3_app a s1 k s2 : zlen s1 = a -> dim3 a (s1 ++ k :: s2) = [prodZ s1; k; prodZ s2].
Proof. intros H. unfold dim3. rewrite firstn_mid, skipn_mid, zn_mid by assumption. reflexivity. Qed.
Lemma coo3_app a s1 k s2 e1 l e2 : zlen s1 = a -> zlen e1 = a ->
  coo3 a (s1 ++ k :: s2) (e1 ++ l :: e2) = [off s1 e1; l; off s2 e2].
Proof. intros H H'. unfold coo3. rewrite !firstn_mid, !skipn_mid, zn_mid by assumption. reflexivity. Qed.

Lemma dim3_prod a sh : 0 <= a < zlen sh -> prodZ (dim3 a sh) = prodZ sh.
Proof.
  intros Ha. destruct (split_at sh a Ha) as (s1 & k & s2 & -> & Hl). rewrite dim3_app by assumption.
  rewrite prodZ_app. simpl. ring.
Qed.

Lemma view3 a sh e : 0 <= a < zlen sh -> inb sh e ->
  inb (dim3 a sh) (coo3 a sh e) /\ off (dim3 a sh) (coo3 a sh e) = off sh e.
Proof.
  intros Ha Hi. destruct (split_at sh a Ha) as (s1 & k & s2 & -> & Hl).
  apply inb_split in Hi as (i1 & l & i2 & -> & Hl1 & H1 & H2 & H3).
  rewrite dim3_app, coo3_app by congruence. split.
  - repeat constructor; try apply off_bound; try assumption; lia.
  - rewrite off_app by (apply inb_length; assumption). simpl. ring.
Qed.

Lemma view3_pos a sh : 0 <= a < zlen sh -> pos sh -> pos (dim3 a sh).
Proof.
  intros Ha Hp. destruct (split_at sh a Ha) as (s1 & k & s2 & -> & Hl). rewrite dim3_app by assumption.
  apply pos_app in Hp as [H1 H2]. inversion H2; subst. repeat constructor; try apply prodZ_pos; assumption.
Qed.

(** Offset in the array without axis [a]. *)
Lemma view2 a sh e : 0 <= a < zlen sh -> inb sh e ->
  off (del a sh) (del a e) = zn (coo3 a sh e) 0 + zn (dim3 a sh) 0 * zn (coo3 a sh e) 2.
Proof.
  intros Ha Hi. destruct (split_at sh a Ha) as (s1 & k & s2 & -> & Hl).
  apply inb_split in Hi as (i1 & l & i2 & -> & Hl1 & H1 & H2 & H3).
  rewrite dim3_app, coo3_app, !del_app by congruence.
  rewrite off_app by (apply inb_length; assumption). reflexivity.
Qed.
Lemma view2_prod a sh : 0 <= a < zlen sh -> prodZ (del a sh) = zn (dim3 a sh) 0 * zn (dim3 a sh) 2.
Proof.
  intros Ha. destruct (split_at sh a Ha) as (s1 & k & s2 & -> & Hl).
  rewrite dim3_app, !del_app by congruence. rewrite prodZ_app. reflexivity.
Qed.

(** Per-dimension maps commute with dropping an axis. *)
Lemma del_map2 (f : Z -> Z -> Z) a l k : zlen l = zlen k -> 0 <= a < zlen l ->
  map2 f (del a l) (del a k) = del a (map2 f l k).
Proof.
  intros Hl Ha. destruct (split_at l a Ha) as (l1 & x & l2 & -> & H1).
  rewrite Hl in Ha. destruct (split_at k a Ha) as (k1 & y & k2 & -> & H2).
  assert (E : List.length l1 = List.length k1) by (unfold zlen in *; lia).
  rewrite !del_app by assumption. rewrite !map2_app by assumption. simpl.
  rewrite del_app; [reflexivity|]. unfold zlen in *. rewrite map2_length; assumption.
Qed.
Lemma del_gridZ a s b : zlen s = zlen b -> 0 <= a < zlen s -> gridZ (del a s) (del a b) = del a (gridZ s b).
Proof. apply del_map2. Qed.
Lemma del_tile_of a b i : zlen b = zlen i -> 0 <= a < zlen b -> tile_of (del a b) (del a i) = del a (tile_of b i).
Proof. apply del_map2. Qed.
Lemma del_in_tile a b i : zlen b = zlen i -> 0 <= a < zlen b -> in_tile (del a b) (del a i) = del a (in_tile b i).
Proof. apply del_map2. Qed.
Lemma del_tshape a s b t : zlen s = zlen b -> zlen s = zlen t -> 0 <= a < zlen s ->
  tshape (del a s) (del a b) (del a t) = del a (tshape s b t).
Proof.
  intros Hb Ht Ha. destruct (split_at s a Ha) as (s1 & x & s2 & -> & H1).
  destruct (split_at b a ltac:(lia)) as (b1 & y & b2 & -> & H2).
  destruct (split_at t a ltac:(lia)) as (t1 & z & t2 & -> & H3).
  assert (E : List.length s1 = List.length b1) by (unfold zlen in *; lia).
  assert (E' : List.length s1 = List.length t1) by (unfold zlen in *; lia).
  rewrite !del_app by assumption. rewrite !tshape_app by assumption. simpl.
  rewrite del_app; [reflexivity|]. unfold zlen in *. rewrite tshape_length; assumption.
Qed.
Lemma del_glob a b t e : zlen b = zlen t -> zlen b = zlen e -> 0 <= a < zlen b ->
  glob (del a b) (del a t) (del a e) = del a (glob b t e).
Proof.
  intros Hb Ht Ha. destruct (split_at b a Ha) as (s1 & x & s2 & -> & H1).
  destruct (split_at t a ltac:(lia)) as (b1 & y & b2 & -> & H2).
  destruct (split_at e a ltac:(lia)) as (t1 & z & t2 & -> & H3).
  assert (E : List.length s1 = List.length b1) by (unfold zlen in *; lia).
  assert (E' : List.length s1 = List.length t1) by (unfold zlen in *; lia).
  rewrite !del_app by assumption. rewrite !glob_app by assumption. simpl.
  rewrite del_app; [reflexivity|]. clear - E E' H1. unfold zlen in *.
  assert (G : List.length (glob s1 b1 t1) = List.length s1); [|lia].
  clear H1. revert b1 t1 E E'; induction s1; destruct b1, t1; simpl; intros; try lia. rewrite IHs1; lia.
Qed.
Lemma zn_gridZ s b a : zlen s = zlen b -> 0 <= a < zlen s -> zn (gridZ s b) a = (zn s a + zn b a - 1) / zn b a.
Proof. intros Hl Ha. unfold gridZ. rewrite zn_map2 by assumption. reflexivity. Qed.
Lemma zn_tshape s b t a : zlen s = zlen b -> zlen s = zlen t -> 0 <= a < zlen s ->
  zn (tshape s b t) a = Z.min (zn b a) (zn s a - zn t a * zn b a).
Proof.
  intros Hb Ht Ha. destruct (split_at s a Ha) as (s1 & x & s2 & -> & H1).
  destruct (split_at b a ltac:(lia)) as (b1 & y & b2 & -> & H2).
  destruct (split_at t a ltac:(lia)) as (t1 & z & t2 & -> & H3).
  assert (E : List.length s1 = List.length b1) by (unfold zlen in *; lia).
  assert (E' : List.length s1 = List.length t1) by (unfold zlen in *; lia).
  rewrite !tshape_app by assumption. simpl. rewrite !zn_mid; try assumption; [reflexivity|].
  unfold zlen in *. rewrite tshape_length; assumption.
Qed.
Lemma zn_glob b t e a : zlen b = zlen t -> zlen b = zlen e -> 0 <= a < zlen b ->
  zn (glob b t e) a = zn t a * zn b a + zn e a.
Proof.
  intros Hb Ht Ha. destruct (split_at b a Ha) as (s1 & x & s2 & -> & H1).
  destruct (split_at t a ltac:(lia)) as (b1 & y & b2 & -> & H2).
  destruct (split_at e a ltac:(lia)) as (t1 & z & t2 & -> & H3).
  assert (E : List.length s1 = List.length b1) by (unfold zlen in *; lia).
  assert (E' : List.length s1 = List.length t1) by (unfold zlen in *; lia).
  rewrite !glob_app by assumption. simpl. rewrite !zn_mid; try assumption; [reflexivity|].
  assert (G : List.length (glob s1 b1 t1) = List.length s1); [|unfold zlen in *; lia].
  clear - E E'. revert b1 t1 E E'; induction s1; destruct b1, t1; simpl; intros; try lia. rewrite IHs1; lia.
Qed.
