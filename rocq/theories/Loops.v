(** * Nested loops that update every cell of an array once *)
From Verif Require Import Base Spec Geometry.

Section L.
Context {T : Type} {D : Dflt T}.
Local Notation vec := (list T).

(** [G j old]: new value of cell j.  The loop nests write cell [c i..] exactly once; [o2 o1 o0]
    recover the loop indices from the cell. *)
Lemma nest1 L n0 (o0 : Z -> Z) (c : Z -> Z) (G : Z -> T -> T) (B0 : Z -> vec -> res vec) d :
  0 <= n0 ->
  (forall i0 d, 0 <= i0 < n0 -> zlen d = L -> B0 i0 d = wr d (c i0) (G (c i0) (zn d (c i0)))) ->
  (forall i0, 0 <= i0 < n0 -> 0 <= c i0 < L /\ o0 (c i0) = i0) ->
  (forall j, 0 <= j < L -> 0 <= o0 j < n0 /\ c (o0 j) = j) ->
  zlen d = L -> for_ 0 n0 B0 d = Ok (ztab L (fun j => G j (zn d j))).
Proof.
  intros Hn HB Hc Ho Hd.
  apply (pw_tab L (fun j => (0 <=? o0 j) && (o0 j <? n0)) (fun j old => G j (old j))).
  - apply pw_for; [assumption| |].
    + intros i Hi. destruct (Hc i Hi) as [Hc1 Hc2].
      apply (pw_weaken L (fun j => j =? c i) _ (fun j old => G j (old j))); auto.
      * apply (pw_wr L (c i) (fun d => G (c i) (zn d (c i)))); auto.
      * intros j Hj. destruct (Ho j Hj) as [_ E]. destruct (Z.eqb_spec j (c i)) as [E1|E1].
        { subst j. rewrite Hc2, Z.eqb_refl. reflexivity. }
        { symmetry. apply Z.eqb_neq. congruence. }
    + intros j f g Hj _ Hfg. f_equal. apply Hfg; auto.
  - assumption.
  - intros j Hj. destruct (Ho j Hj). apply andb_true_iff. split; [apply Z.leb_le|apply Z.ltb_lt]; lia.
Qed.

(** one level: loop over blocks of cells *)
Definition blk (L : Z) (S : Z -> bool) (G : Z -> T -> T) (f : vec -> res vec) : Prop :=
  pw L S (fun j old => G j (old j)) f.

Lemma blk_for L n (o : Z -> Z) (S : Z -> bool) (S' : Z -> Z -> bool) G body :
  0 <= n ->
  (forall i, 0 <= i < n -> blk L (S' i) G (body i)) ->
  (forall i j, 0 <= i < n -> 0 <= j < L -> S' i j = S j && (o j =? i)) ->
  (forall j, 0 <= j < L -> S j = true -> 0 <= o j < n) ->
  blk L S G (for_ 0 n body).
Proof.
  intros Hn Hb HS Ho.
  set (o' := fun j => if S j then o j else -1).
  apply (pw_weaken L (fun j => (0 <=? o' j) && (o' j <? n)) _ (fun j old => G j (old j))); auto.
  - apply pw_for; [assumption| |].
    + intros i Hi. apply (pw_weaken L (S' i) _ (fun j old => G j (old j))); auto.
      * apply Hb; assumption.
      * intros j Hj. rewrite HS by assumption. unfold o'. destruct (S j); [reflexivity|].
        cbn [andb]. symmetry. apply Z.eqb_neq. lia.
    + intros j f g Hj _ Hfg. f_equal. apply Hfg; auto.
  - intros j Hj. unfold o'. destruct (S j) eqn:E.
    + destruct (Ho j Hj E). destruct (Z.leb_spec 0 (o j)), (Z.ltb_spec (o j) n); auto; lia.
    + destruct (Z.leb_spec 0 (-1)); [lia|reflexivity].
Qed.

Lemma blk_ext L S S' G f : blk L S G f -> (forall j, 0 <= j < L -> S j = S' j) -> blk L S' G f.
Proof. intros H E. eapply pw_weaken; [exact H|assumption|reflexivity]. Qed.

Lemma blk_fun L S G f g : (forall d, zlen d = L -> f d = g d) -> blk L S G f -> blk L S G g.
Proof. intros E H d Hd. destruct (H d Hd) as (d' & E' & X). exists d'. rewrite <- E by assumption. auto. Qed.

Lemma blk_wr L c (G : Z -> T -> T) f : 0 <= c < L ->
  (forall d, zlen d = L -> f d = wr d c (G c (zn d c))) -> blk L (fun j => j =? c) G f.
Proof.
  intros Hc Hf. apply (pw_wr L c (fun d => G c (zn d c))); auto.
Qed.

Lemma blk_tab L (G : Z -> T -> T) f d : blk L (fun _ => true) G f -> zlen d = L ->
  f d = Ok (ztab L (fun j => G j (zn d j))).
Proof. intros H Hd. apply (pw_tab L (fun _ => true) (fun j old => G j (old j)) f d H Hd). auto. Qed.

Ltac owners Ho := let E := fresh in destruct Ho as E.

Lemma andb_t_l b : true && b = b. Proof. reflexivity. Qed.

Lemma nest2 L n1 n0 (o1 o0 : Z -> Z) (c : Z -> Z -> Z) G (B1 : Z -> vec -> res vec) (B0 : Z -> Z -> vec -> res vec) d :
  0 <= n1 -> 0 <= n0 ->
  (forall i1 d, 0 <= i1 < n1 -> zlen d = L -> B1 i1 d = for_ 0 n0 (B0 i1) d) ->
  (forall i1 i0 d, 0 <= i1 < n1 -> 0 <= i0 < n0 -> zlen d = L ->
     B0 i1 i0 d = wr d (c i1 i0) (G (c i1 i0) (zn d (c i1 i0)))) ->
  (forall i1 i0, 0 <= i1 < n1 -> 0 <= i0 < n0 -> 0 <= c i1 i0 < L /\ o1 (c i1 i0) = i1 /\ o0 (c i1 i0) = i0) ->
  (forall j, 0 <= j < L -> 0 <= o1 j < n1 /\ 0 <= o0 j < n0 /\ c (o1 j) (o0 j) = j) ->
  zlen d = L -> for_ 0 n1 B1 d = Ok (ztab L (fun j => G j (zn d j))).
Proof.
  intros Hn1 Hn0 HB1 HB0 Hc Ho Hd. apply blk_tab; [|assumption].
  apply (blk_for L n1 o1 _ (fun i1 j => o1 j =? i1)); auto; [|intros j Hj _; apply Ho; assumption].
  intros i1 Hi1. apply (blk_fun L _ G (for_ 0 n0 (B0 i1))); [intros; symmetry; apply HB1; assumption|].
  apply (blk_for L n0 o0 _ (fun i0 j => j =? c i1 i0)); auto.
  - intros i0 Hi0. destruct (Hc i1 i0 Hi1 Hi0) as (C1 & C2 & C3). apply blk_wr; auto.
  - intros i0 j Hi0 Hj. destruct (Hc i1 i0 Hi1 Hi0) as (C1 & C2 & C3). destruct (Ho j Hj) as (O1 & O2 & O3).
    destruct (Z.eqb_spec j (c i1 i0)) as [->|Hne].
    + rewrite C2, C3, !Z.eqb_refl. reflexivity.
    + symmetry. apply andb_false_iff. destruct (Z.eqb_spec (o1 j) i1) as [E1|]; [right|auto].
      apply Z.eqb_neq. congruence.
  - intros j Hj _. apply Ho; assumption.
Qed.

Lemma nest3 L n2 n1 n0 (o2 o1 o0 : Z -> Z) (c : Z -> Z -> Z -> Z) G
    (B2 : Z -> vec -> res vec) (B1 : Z -> Z -> vec -> res vec) (B0 : Z -> Z -> Z -> vec -> res vec) d :
  0 <= n2 -> 0 <= n1 -> 0 <= n0 ->
  (forall i2 d, 0 <= i2 < n2 -> zlen d = L -> B2 i2 d = for_ 0 n1 (B1 i2) d) ->
  (forall i2 i1 d, 0 <= i2 < n2 -> 0 <= i1 < n1 -> zlen d = L -> B1 i2 i1 d = for_ 0 n0 (B0 i2 i1) d) ->
  (forall i2 i1 i0 d, 0 <= i2 < n2 -> 0 <= i1 < n1 -> 0 <= i0 < n0 -> zlen d = L ->
     B0 i2 i1 i0 d = wr d (c i2 i1 i0) (G (c i2 i1 i0) (zn d (c i2 i1 i0)))) ->
  (forall i2 i1 i0, 0 <= i2 < n2 -> 0 <= i1 < n1 -> 0 <= i0 < n0 ->
     0 <= c i2 i1 i0 < L /\ o2 (c i2 i1 i0) = i2 /\ o1 (c i2 i1 i0) = i1 /\ o0 (c i2 i1 i0) = i0) ->
  (forall j, 0 <= j < L -> 0 <= o2 j < n2 /\ 0 <= o1 j < n1 /\ 0 <= o0 j < n0 /\ c (o2 j) (o1 j) (o0 j) = j) ->
  zlen d = L -> for_ 0 n2 B2 d = Ok (ztab L (fun j => G j (zn d j))).
Proof.
  intros Hn2 Hn1 Hn0 HB2 HB1 HB0 Hc Ho Hd. apply blk_tab; [|assumption].
  apply (blk_for L n2 o2 _ (fun i2 j => o2 j =? i2)); auto; [|intros j Hj _; apply Ho; assumption].
  intros i2 Hi2. apply (blk_fun L _ G (for_ 0 n1 (B1 i2))); [intros; symmetry; apply HB2; assumption|].
  apply (blk_for L n1 o1 _ (fun i1 j => (o2 j =? i2) && (o1 j =? i1))); auto; [|intros j Hj _; apply Ho; assumption].
  intros i1 Hi1. apply (blk_fun L _ G (for_ 0 n0 (B0 i2 i1))); [intros; symmetry; apply HB1; assumption|].
  apply (blk_for L n0 o0 _ (fun i0 j => j =? c i2 i1 i0)); auto.
  - intros i0 Hi0. destruct (Hc i2 i1 i0 Hi2 Hi1 Hi0) as (C1 & C2 & C3). apply blk_wr; auto.
  - intros i0 j Hi0 Hj. destruct (Hc i2 i1 i0 Hi2 Hi1 Hi0) as (C1 & C2 & C3 & C4).
    destruct (Ho j Hj) as (O1 & O2 & O3 & O4).
    destruct (Z.eqb_spec j (c i2 i1 i0)) as [->|Hne].
    + rewrite C2, C3, C4, !Z.eqb_refl. reflexivity.
    + symmetry. destruct (Z.eqb_spec (o2 j) i2) as [E2|]; [|reflexivity].
      destruct (Z.eqb_spec (o1 j) i1) as [E1|]; [|reflexivity]. apply Z.eqb_neq. congruence.
  - intros j Hj _. apply Ho; assumption.
Qed.

Lemma nest4 L n3 n2 n1 n0 (o3 o2 o1 o0 : Z -> Z) (c : Z -> Z -> Z -> Z -> Z) G
    (B3 : Z -> vec -> res vec) (B2 : Z -> Z -> vec -> res vec) (B1 : Z -> Z -> Z -> vec -> res vec)
    (B0 : Z -> Z -> Z -> Z -> vec -> res vec) d :
  0 <= n3 -> 0 <= n2 -> 0 <= n1 -> 0 <= n0 ->
  (forall i3 d, 0 <= i3 < n3 -> zlen d = L -> B3 i3 d = for_ 0 n2 (B2 i3) d) ->
  (forall i3 i2 d, 0 <= i3 < n3 -> 0 <= i2 < n2 -> zlen d = L -> B2 i3 i2 d = for_ 0 n1 (B1 i3 i2) d) ->
  (forall i3 i2 i1 d, 0 <= i3 < n3 -> 0 <= i2 < n2 -> 0 <= i1 < n1 -> zlen d = L ->
     B1 i3 i2 i1 d = for_ 0 n0 (B0 i3 i2 i1) d) ->
  (forall i3 i2 i1 i0 d, 0 <= i3 < n3 -> 0 <= i2 < n2 -> 0 <= i1 < n1 -> 0 <= i0 < n0 -> zlen d = L ->
     B0 i3 i2 i1 i0 d = wr d (c i3 i2 i1 i0) (G (c i3 i2 i1 i0) (zn d (c i3 i2 i1 i0)))) ->
  (forall i3 i2 i1 i0, 0 <= i3 < n3 -> 0 <= i2 < n2 -> 0 <= i1 < n1 -> 0 <= i0 < n0 ->
     0 <= c i3 i2 i1 i0 < L /\ o3 (c i3 i2 i1 i0) = i3 /\ o2 (c i3 i2 i1 i0) = i2 /\
     o1 (c i3 i2 i1 i0) = i1 /\ o0 (c i3 i2 i1 i0) = i0) ->
  (forall j, 0 <= j < L -> 0 <= o3 j < n3 /\ 0 <= o2 j < n2 /\ 0 <= o1 j < n1 /\ 0 <= o0 j < n0 /\
     c (o3 j) (o2 j) (o1 j) (o0 j) = j) ->
  zlen d = L -> for_ 0 n3 B3 d = Ok (ztab L (fun j => G j (zn d j))).
Proof.
  intros Hn3 Hn2 Hn1 Hn0 HB3 HB2 HB1 HB0 Hc Ho Hd. apply blk_tab; [|assumption].
  apply (blk_for L n3 o3 _ (fun i3 j => o3 j =? i3)); auto; [|intros j Hj _; apply Ho; assumption].
  intros i3 Hi3. apply (blk_fun L _ G (for_ 0 n2 (B2 i3))); [intros; symmetry; apply HB3; assumption|].
  apply (blk_for L n2 o2 _ (fun i2 j => (o3 j =? i3) && (o2 j =? i2))); auto; [|intros j Hj _; apply Ho; assumption].
  intros i2 Hi2. apply (blk_fun L _ G (for_ 0 n1 (B1 i3 i2))); [intros; symmetry; apply HB2; assumption|].
  apply (blk_for L n1 o1 _ (fun i1 j => (o3 j =? i3) && (o2 j =? i2) && (o1 j =? i1))); auto; [|intros j Hj _; apply Ho; assumption].
  intros i1 Hi1. apply (blk_fun L _ G (for_ 0 n0 (B0 i3 i2 i1))); [intros; symmetry; apply HB1; assumption|].
  apply (blk_for L n0 o0 _ (fun i0 j => j =? c i3 i2 i1 i0)); auto.
  - intros i0 Hi0. destruct (Hc i3 i2 i1 i0 Hi3 Hi2 Hi1 Hi0) as (C1 & C2 & C3). apply blk_wr; auto.
  - intros i0 j Hi0 Hj. destruct (Hc i3 i2 i1 i0 Hi3 Hi2 Hi1 Hi0) as (C1 & C2 & C3 & C4 & C5).
    destruct (Ho j Hj) as (O1 & O2 & O3 & O4 & O5).
    destruct (Z.eqb_spec j (c i3 i2 i1 i0)) as [->|Hne].
    + rewrite C2, C3, C4, C5, !Z.eqb_refl. reflexivity.
    + symmetry. destruct (Z.eqb_spec (o3 j) i3) as [E3|]; [|reflexivity].
      destruct (Z.eqb_spec (o2 j) i2) as [E2|]; [|reflexivity].
      destruct (Z.eqb_spec (o1 j) i1) as [E1|]; [|reflexivity]. apply Z.eqb_neq. congruence.
  - intros j Hj _. apply Ho; assumption.
Qed.
End L.

(** Components of the coordinate of an offset. *)
Definition cz (dims : list Z) (p j : Z) : Z := zn (unoff dims j) p.

Lemma cz2 m n i j : 0 <= i < m -> 0 <= j < n ->
  cz [m; n] 0 (i + m * j) = i /\ cz [m; n] 1 (i + m * j) = j /\ 0 <= i + m * j < m * n.
Proof.
  intros Hi Hj. assert (H : inb [m; n] [i; j]) by (repeat constructor; lia).
  pose proof (unoff_off _ _ H) as E. pose proof (off_bound _ _ H) as B. cbn [off prodZ] in *.
  replace (i + m * (j + n * 0)) with (i + m * j) in * by ring. unfold cz. rewrite E. cbn. split; [|split]; auto; lia.
Qed.
Lemma cz2_inv m n j : 0 < m -> 0 < n -> 0 <= j < m * n ->
  0 <= cz [m; n] 0 j < m /\ 0 <= cz [m; n] 1 j < n /\ cz [m; n] 0 j + m * cz [m; n] 1 j = j.
Proof.
  intros Hm Hn Hj. assert (P : pos [m; n]) by (repeat constructor; assumption).
  assert (Hj' : 0 <= j < prodZ [m; n]) by (cbn [prodZ]; lia).
  pose proof (unoff_inb _ _ P Hj') as H. pose proof (off_unoff _ _ P Hj') as E. unfold cz.
  cbn [unoff] in *. inversion H as [|? ? ? ? H1 H2]; subst. inversion H2 as [|? ? ? ? H3 H4]; subst.
  cbn [off] in E. change (zn [j mod m; (j / m) mod n] 0) with (j mod m).
  change (zn [j mod m; (j / m) mod n] 1) with ((j / m) mod n). lia.
Qed.
Lemma cz3 m k n i l j : 0 <= i < m -> 0 <= l < k -> 0 <= j < n ->
  cz [m; k; n] 0 (i + m * (l + k * j)) = i /\ cz [m; k; n] 1 (i + m * (l + k * j)) = l /\
  cz [m; k; n] 2 (i + m * (l + k * j)) = j /\ 0 <= i + m * (l + k * j) < m * (k * n).
Proof.
  intros Hi Hl Hj. assert (H : inb [m; k; n] [i; l; j]) by (repeat constructor; lia).
  pose proof (unoff_off _ _ H) as E. pose proof (off_bound _ _ H) as B. cbn [off prodZ] in *.
  replace (i + m * (l + k * (j + n * 0))) with (i + m * (l + k * j)) in * by ring.
  replace (n * 1) with n in B by ring. unfold cz. rewrite E. cbn. split; [|split; [|split]]; auto.
Qed.
Lemma cz3_inv m k n j : 0 < m -> 0 < k -> 0 < n -> 0 <= j < m * (k * n) ->
  0 <= cz [m; k; n] 0 j < m /\ 0 <= cz [m; k; n] 1 j < k /\ 0 <= cz [m; k; n] 2 j < n /\
  cz [m; k; n] 0 j + m * (cz [m; k; n] 1 j + k * cz [m; k; n] 2 j) = j.
Proof.
  intros Hm Hk Hn Hj. assert (P : pos [m; k; n]) by (repeat constructor; assumption).
  assert (Hj' : 0 <= j < prodZ [m; k; n]) by (cbn [prodZ]; lia).
  pose proof (unoff_inb _ _ P Hj') as H. pose proof (off_unoff _ _ P Hj') as E. unfold cz.
  cbn [unoff] in *. inversion H as [|? ? ? ? H1 H2]; subst. inversion H2 as [|? ? ? ? H3 H4]; subst.
  inversion H4 as [|? ? ? ? H5 H6]; subst.
  cbn [off] in E. change (zn [j mod m; (j / m) mod k; (j / m / k) mod n] 0) with (j mod m).
  change (zn [j mod m; (j / m) mod k; (j / m / k) mod n] 1) with ((j / m) mod k).
  change (zn [j mod m; (j / m) mod k; (j / m / k) mod n] 2) with ((j / m / k) mod n).
  repeat split; lia.
Qed.
Lemma cz4 m k n b i l j p : 0 <= i < m -> 0 <= l < k -> 0 <= j < n -> 0 <= p < b ->
  cz [m; k; n; b] 0 (i + m * (l + k * (j + n * p))) = i /\ cz [m; k; n; b] 1 (i + m * (l + k * (j + n * p))) = l /\
  cz [m; k; n; b] 2 (i + m * (l + k * (j + n * p))) = j /\ cz [m; k; n; b] 3 (i + m * (l + k * (j + n * p))) = p /\
  0 <= i + m * (l + k * (j + n * p)) < m * (k * (n * b)).
Proof.
  intros Hi Hl Hj Hp. assert (H : inb [m; k; n; b] [i; l; j; p]) by (repeat constructor; lia).
  pose proof (unoff_off _ _ H) as E. pose proof (off_bound _ _ H) as B. cbn [off prodZ] in *.
  replace (i + m * (l + k * (j + n * (p + b * 0)))) with (i + m * (l + k * (j + n * p))) in * by ring.
  replace (b * 1) with b in B by ring. unfold cz. rewrite E. cbn. repeat split; auto; lia.
Qed.
Lemma cz4_inv m k n b j : 0 < m -> 0 < k -> 0 < n -> 0 < b -> 0 <= j < m * (k * (n * b)) ->
  0 <= cz [m; k; n; b] 0 j < m /\ 0 <= cz [m; k; n; b] 1 j < k /\ 0 <= cz [m; k; n; b] 2 j < n /\
  0 <= cz [m; k; n; b] 3 j < b /\
  cz [m; k; n; b] 0 j + m * (cz [m; k; n; b] 1 j + k * (cz [m; k; n; b] 2 j + n * cz [m; k; n; b] 3 j)) = j.
Proof.
  intros Hm Hk Hn Hb Hj. assert (P : pos [m; k; n; b]) by (repeat constructor; assumption).
  assert (Hj' : 0 <= j < prodZ [m; k; n; b]) by (cbn [prodZ]; replace (b * 1) with b by ring; assumption).
  pose proof (unoff_inb _ _ P Hj') as H. pose proof (off_unoff _ _ P Hj') as E. unfold cz.
  cbn [unoff] in *. inversion H as [|? ? ? ? H1 H2]; subst. inversion H2 as [|? ? ? ? H3 H4]; subst.
  inversion H4 as [|? ? ? ? H5 H6]; subst. inversion H6 as [|? ? ? ? H7 H8]; subst.
  cbn [off] in E.
  set (a0 := j mod m) in *. set (a1 := (j / m) mod k) in *. set (a2 := (j / m / k) mod n) in *.
  set (a3 := (j / m / k / n) mod b) in *.
  change (zn [a0; a1; a2; a3] 0) with a0. change (zn [a0; a1; a2; a3] 1) with a1.
  change (zn [a0; a1; a2; a3] 2) with a2. change (zn [a0; a1; a2; a3] 3) with a3.
  repeat split; try lia.
Qed.
