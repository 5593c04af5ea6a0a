(** * C37 packed arguments, C38 life of the handles, C39 placement of codelets *)
From Verif Require Import Base Runtime Config.
Local Open Scope Z_scope.

(** ** C37 *)
Lemma zlen_le_enc n z : zlen (le_enc n z) = Z.of_nat n.
Proof. revert z. induction n as [|n IH]; intros z; cbn [le_enc]; [reflexivity|]. rewrite zlen_cons, IH. lia. Qed.
Lemma le_dec_enc n z : 0 <= z < 256 ^ Z.of_nat n -> le_dec (le_enc n z) = z.
Proof.
  revert z. induction n as [|n IH]; intros z Hz; cbn [le_enc le_dec]; [rewrite Z.pow_0_r in Hz; lia|].
  replace (Z.of_nat (S n)) with (Z.of_nat n + 1) in Hz by lia. rewrite Z.pow_add_r, Z.pow_1_r in Hz by lia.
  rewrite IH; [pose proof (Z.div_mod z 256); lia|]. split; [apply Z.div_pos; lia|]. apply Z.div_lt_upper_bound; lia.
Qed.
Lemma slice_app {A} (pre l post : list A) : slice (pre ++ l ++ post) (zlen pre) (zlen l) = l.
Proof.
  unfold slice, zlen. rewrite !Nat2Z.id, skipn_app, skipn_all, Nat.sub_diag. cbn [skipn app].
  rewrite firstn_app, firstn_all, Nat.sub_diag. cbn [firstn]. apply app_nil_r.
Qed.
Lemma load_app pre n z post p : p = zlen pre -> 0 <= z < 256 ^ Z.of_nat n -> load (pre ++ le_enc n z ++ post) p n = Ok z.
Proof.
  intros -> Hz. unfold load. rewrite !zlen_app, zlen_le_enc. pose proof (zlen_nonneg pre). pose proof (zlen_nonneg post).
  replace (0 <=? zlen pre) with true by (symmetry; apply Z.leb_le; lia).
  replace (_ <=? _) with true by (symmetry; apply Z.leb_le; lia). cbn [andb].
  rewrite <- (zlen_le_enc n z), slice_app, le_dec_enc by assumption. reflexivity.
Qed.

Definition packed1 (a : list Z) : list Z := le_enc 8 (zlen a) ++ a.
Lemma single_ok args : forall pre post ptrs, Forall (fun a => zlen a < 2 ^ 64) args ->
  exists ptrs', unpack_args_ptr_single_arg (pre ++ flat_map packed1 args ++ post) (zlen pre) (zlen args) ptrs = Ok ptrs' /\
    List.length ptrs' = List.length ptrs /\
    (forall i a, nth_error args i = Some a -> (i < List.length ptrs)%nat ->
       let p := zlen (pre ++ flat_map packed1 (firstn i args)) + 8 in
       nth_error ptrs' i = Some (Some p) /\ slice (pre ++ flat_map packed1 args ++ post) p (zlen a) = a) /\
    (forall i, (List.length args <= i)%nat -> nth_error ptrs' i = nth_error ptrs i).
Proof.
  induction args as [|a args IH]; intros pre post ptrs HF.
  - exists ptrs. split; [|split; [reflexivity|split; [intros [|i] a H; discriminate H|reflexivity]]].
    destruct ptrs; reflexivity.
  - inversion HF as [|? ? Ha HF']; subst. destruct ptrs as [|q ptrs].
    + exists []. split; [reflexivity|]. split; [reflexivity|]. split; [intros i a0 _ Hi; inversion Hi|]. intros [|i] _; reflexivity.
    + specialize (IH (pre ++ packed1 a) post ptrs HF'). destruct IH as (ptrs' & E & L & H1 & H2).
      exists (Some (zlen pre + 8) :: ptrs'). cbn [unpack_args_ptr_single_arg flat_map].
      rewrite zlen_cons. pose proof (zlen_nonneg args). destruct (Z.eqb_spec (zlen args + 1) 0) as [X|_]; [lia|].
      replace (pre ++ (packed1 a ++ flat_map packed1 args) ++ post) with ((pre ++ packed1 a) ++ flat_map packed1 args ++ post)
        by (rewrite <- !app_assoc; reflexivity).
      assert (Eq : (pre ++ packed1 a) ++ flat_map packed1 args ++ post = pre ++ le_enc 8 (zlen a) ++ (a ++ flat_map packed1 args ++ post))
        by (unfold packed1 at 1; rewrite <- !app_assoc; reflexivity).
      rewrite Eq at 1. rewrite load_app; [|reflexivity|change (256 ^ Z.of_nat 8) with (2 ^ 64); split; [apply zlen_nonneg|assumption]].
      rewrite bind_Ok. cbv zeta. replace (zlen pre + 8 + zlen a) with (zlen (pre ++ packed1 a))
        by (unfold packed1; rewrite !zlen_app, zlen_le_enc; lia).
      replace (zlen args + 1 - 1) with (zlen args) by lia. rewrite E, bind_Ok.
      split; [reflexivity|]. split; [cbn [List.length]; congruence|]. split.
      * intros [|i] b Hb Hi.
        -- cbn in Hb. inversion Hb; subst b. cbn [firstn flat_map nth_error]. rewrite app_nil_r. split; [reflexivity|].
           rewrite Eq, app_assoc. replace (zlen pre + 8) with (zlen (pre ++ le_enc 8 (zlen a))) by (rewrite zlen_app, zlen_le_enc; lia).
           apply slice_app.
        -- cbn [nth_error] in Hb. cbn [List.length] in Hi. specialize (H1 i b Hb ltac:(lia)). cbv zeta in H1 |- *.
           cbn [firstn flat_map nth_error]. rewrite app_assoc. exact H1.
      * intros [|i] Hi; cbn [List.length] in Hi; [lia|]. cbn [nth_error]. apply H2. lia.
Qed.

(** [mem]: the packed arguments, possibly followed by other bytes.  The i-th pointer ends up at the first byte after the i
    previous arguments and its own size field, and the bytes there are those of argument i. *)
Theorem C37_unpack (args : list (list Z)) (tail : list Z) (ptrs : list (option Z)) :
  zlen args < 2 ^ 31 -> Forall (fun a => zlen a < 2 ^ 64) args ->
  let mem := pack_args args ++ tail in
  exists ptrs', unpack_args_ptr mem ptrs = Ok ptrs' /\ List.length ptrs' = List.length ptrs /\
    (forall i a, nth_error args i = Some a -> (i < List.length ptrs)%nat ->
       exists p, nth_error ptrs' i = Some (Some p) /\ p = zlen (pack_args (firstn i args)) + 8 /\ slice mem p (zlen a) = a) /\
    (forall i, (List.length args <= i)%nat -> nth_error ptrs' i = nth_error ptrs i).
Proof.
  intros Hn HF mem. unfold unpack_args_ptr. pose proof (zlen_nonneg args) as Hp.
  assert (Em : mem = le_enc 4 (zlen args) ++ flat_map packed1 args ++ tail) by (unfold mem, pack_args; rewrite <- app_assoc; reflexivity).
  rewrite Em. replace (load _ 0 4) with (Ok (zlen args)).
  2:{ symmetry. apply (load_app [] 4 (zlen args)); [reflexivity|]. change (256 ^ Z.of_nat 4) with (2 ^ 32). lia. }
  rewrite bind_Ok. cbv zeta. replace (zlen args <? 2 ^ 31) with true by (symmetry; apply Z.ltb_lt; assumption).
  destruct (single_ok args (le_enc 4 (zlen args)) tail ptrs HF) as (ptrs' & E & L & H1 & H2). rewrite zlen_le_enc in E. change (Z.of_nat 4) with 4 in E.
  destruct (Z.ltb_spec 0 (zlen args)) as [H0|H0].
  - exists ptrs'. rewrite <- Em in *. split; [exact E|]. split; [assumption|]. split; [|assumption].
    intros i a Ha Hi. destruct (H1 i a Ha Hi) as [X1 X2]. eexists. split; [exact X1|]. split; [|exact X2].
    unfold pack_args. rewrite !zlen_app, !zlen_le_enc. reflexivity.
  - assert (args = []) as -> by (destruct args; [reflexivity|rewrite zlen_cons in H0; pose proof (zlen_nonneg args); lia]).
    exists ptrs. split; [reflexivity|]. split; [reflexivity|]. split; [intros [|i] a Ha; discriminate Ha|reflexivity].
Qed.

(** Three arguments (one of them empty) into four pointers. *)
Example C37_case :
  let args := [[7; 0; 0; 0; 0; 0; 0; 0]; []; [1; 2; 3]] in
  zlen args < 2 ^ 31 /\ Forall (fun a => zlen a < 2 ^ 64) args /\
  unpack_args_ptr (pack_args args ++ [9]) [None; None; None; Some 5] = Ok [Some 12; Some 28; Some 36; Some 5].
Proof. split; [reflexivity|]. split; [repeat constructor|reflexivity]. Qed.

(** ** C38 *)
(** Number of y < n with f y. *)
Fixpoint cnt (f : nat -> bool) (n : nat) : nat :=
  match n with O => O | S n => ((if f n then 1 else 0) + cnt f n)%nat end.
Lemma cnt_ext f g n : (forall y, (y < n)%nat -> f y = g y) -> cnt f n = cnt g n.
Proof. induction n as [|n IH]; intros H; cbn [cnt]; [reflexivity|]. rewrite IH, H by (intros; try apply H; lia). reflexivity. Qed.
Lemma cnt_more f n m : (n <= m)%nat -> (forall y, (n <= y)%nat -> f y = false) -> cnt f m = cnt f n.
Proof. intros H Hf. induction H as [|m H IH]; [reflexivity|]. cbn [cnt]. rewrite IH, Hf by assumption. reflexivity. Qed.
Lemma cnt_upd f x b n : (x < n)%nat ->
  (cnt (fun y => if Nat.eqb y x then b else f y) n + (if f x then 1 else 0) = cnt f n + (if b then 1 else 0))%nat.
Proof.
  induction n as [|n IH]; intros Hx; [lia|]. cbn [cnt]. destruct (Nat.eqb_spec n x) as [->|E].
  - rewrite (cnt_ext _ f x); [lia|]. intros y Hy. destruct (Nat.eqb_spec y x) as [->|]; [lia|reflexivity].
  - specialize (IH ltac:(lia)). lia.
Qed.
Lemma cnt_pos f n x : (x < n)%nat -> f x = true -> (0 < cnt f n)%nat.
Proof. induction n as [|n IH]; intros Hx Hf; [lia|]. cbn [cnt]. destruct (Nat.eq_dec x n) as [->|]; [rewrite Hf; lia|]. specialize (IH ltac:(lia) Hf). lia. Qed.
Lemma cnt_zero f n : (forall x, (x < n)%nat -> f x = false) -> cnt f n = O.
Proof. induction n as [|n IH]; intros H; cbn [cnt]; [reflexivity|]. rewrite H, IH by (intros; try apply H; lia). reflexivity. Qed.

Definition points (v : option sptr) (i : nat) : bool := match v with Some (Some j) => Nat.eqb j i | _ => false end.
Definition lptr (d : option local) : option sptr := option_map l_handle d.
Definition owners (w : world) (i n : nat) : nat :=
  (cnt (fun x => points (w_vars w x) i) n + cnt (fun l => points (lptr (w_locals w l)) i) n)%nat.
Definition is_unreg (h : nat) (e : event) : bool := match e with EUnregister _ h' => Nat.eqb h' h | _ => false end.
Definition is_reg (h : nat) (e : event) : bool := match e with ERegister h' => Nat.eqb h' h | _ => false end.
Definition is_acq (h : nat) (e : event) : bool := match e with EAcquire h' => Nat.eqb h' h | _ => false end.
Definition is_rel (h : nat) (e : event) : bool := match e with ERelease h' => Nat.eqb h' h | _ => false end.

(** [k i]: owners of block i that are not (or no longer, or not yet) in a variable. *)
Record hinv (k : nat -> nat) (n : nat) (w : world) : Prop := {
  hi_dead : forall x, (n <= x)%nat -> w_vars w x = None /\ w_locals w x = None;
  hi_valid : forall x i, points (w_vars w x) i = true \/ points (lptr (w_locals w x)) i = true -> (i < List.length (w_blocks w))%nat;
  hi_count : forall i b, nth_error (w_blocks w) i = Some b -> b_count b = (owners w i n + k i)%nat;
  hi_trace : forall i b, nth_error (w_blocks w) i = Some b ->
    filter (is_unreg (b_handle b)) (w_trace w) = (if Nat.eqb (b_count b) 0 then [EUnregister (b_policy b) (b_handle b)] else []);
  hi_lt : forall i b, nth_error (w_blocks w) i = Some b -> (b_handle b < w_next w)%nat;
  hi_inj : forall i j b b', nth_error (w_blocks w) i = Some b -> nth_error (w_blocks w) j = Some b' -> b_handle b = b_handle b' -> i = j;
  hi_none : forall h, (forall i b, nth_error (w_blocks w) i = Some b -> b_handle b <> h) -> filter (is_unreg h) (w_trace w) = [];
  hi_reg : forall h, filter (is_reg h) (w_trace w) = (if Nat.ltb h (w_next w) then [ERegister h] else [])
}.

Lemma hinv_more k n m w : (n <= m)%nat -> hinv k n w -> hinv k m w.
Proof.
  intros Hn H. destruct H as [H1 H2 H3 H4 H5 H6 H7 H8]. constructor; try assumption; [intros x Hx; apply H1; lia|].
  intros i b Hb. rewrite (H3 i b Hb). f_equal. unfold owners. f_equal; symmetry; apply cnt_more; try assumption; intros y Hy; destruct (H1 y Hy) as [E1 E2]; [rewrite E1|rewrite E2]; reflexivity.
Qed.

Definition one (p : sptr) (i : nat) : nat := if points (Some p) i then 1%nat else 0%nat.

Lemma nth_error_upd {A} (l : list A) i j v : nth_error (upd l i v) j = if Nat.eqb j i then (match nth_error l j with Some _ => Some v | None => None end) else nth_error l j.
Proof.
  revert i j. induction l as [|a l IH]; intros i j; cbn [upd].
  - destruct j; destruct (Nat.eqb _ i); reflexivity.
  - destruct i as [|i], j as [|j]; cbn [nth_error Nat.eqb]; try reflexivity. apply IH.
Qed.

Lemma sp_inc_inv p w k n : hinv k n w -> (forall i, points (Some p) i = true -> exists b, nth_error (w_blocks w) i = Some b /\ (b_count b <> 0)%nat) ->
  exists w', sp_inc p w = Ok w' /\ hinv (fun i => k i + one p i)%nat n w' /\ w_vars w' = w_vars w /\ w_locals w' = w_locals w /\
    w_trace w' = w_trace w /\ w_next w' = w_next w /\ List.length (w_blocks w') = List.length (w_blocks w) /\
    (forall i b, nth_error (w_blocks w) i = Some b -> exists b', nth_error (w_blocks w') i = Some b' /\ b_handle b' = b_handle b /\ b_policy b' = b_policy b /\ (b_count b <= b_count b')%nat).
Proof.
  intros H Hp. destruct p as [i|]; cbn [sp_inc].
  2:{ exists w. split; [reflexivity|]. split; [|repeat split; eauto 6].
      destruct H as [H1 H2 H3 H4 H5 H6 H7 H8]; constructor; try assumption.
      intros i b Hb. rewrite (H3 i b Hb). unfold one. cbn [points]. lia. }
  destruct (Hp i) as (b & Hb & Hc); [cbn; apply Nat.eqb_refl|]. rewrite Hb. eexists. split; [reflexivity|].
  destruct H as [H1 H2 H3 H4 H5 H6 H7 H8]. split; [constructor; cbn [w_vars w_locals w_blocks w_trace w_next set_blocks]; try assumption|].
  - intros x j Hj. specialize (H2 x j Hj). rewrite upd_length. exact H2.
  - intros j b' Hj. rewrite nth_error_upd in Hj. unfold owners. cbn [w_vars w_locals set_blocks]. unfold one. cbn [points].
    destruct (Nat.eqb_spec j i) as [->|E].
    + rewrite Hb in Hj. inversion Hj; subst b'. cbn [b_count set_count]. rewrite Nat.eqb_refl. rewrite (H3 i b Hb). unfold owners. lia.
    + rewrite (H3 j b' Hj). destruct (Nat.eqb_spec i j); [congruence|]. unfold owners. lia.
  - intros j b' Hj. rewrite nth_error_upd in Hj. destruct (Nat.eqb_spec j i) as [->|E]; [|apply (H4 j); assumption].
    rewrite Hb in Hj. inversion Hj; subst b'. cbn [b_count b_handle b_policy set_count]. cbn [Nat.eqb]. rewrite (H4 i b Hb).
    destruct (Nat.eqb_spec (b_count b) 0); [contradiction|reflexivity].
  - intros j b' Hj. rewrite nth_error_upd in Hj. destruct (Nat.eqb_spec j i) as [->|E]; [|apply (H5 j); assumption].
    rewrite Hb in Hj. inversion Hj; subst b'. cbn [b_handle set_count]. apply (H5 i b Hb).
  - intros j j' b1 b2 Hj Hj' He. rewrite nth_error_upd in Hj, Hj'.
    assert (X : forall j b1, (if Nat.eqb j i then match nth_error (w_blocks w) j with Some _ => Some (set_count b (S (b_count b))) | None => None end else nth_error (w_blocks w) j) = Some b1 ->
      exists b0, nth_error (w_blocks w) j = Some b0 /\ b_handle b0 = b_handle b1).
    { clear j j' b1 b2 Hj Hj' He. intros j b1 Hj. destruct (Nat.eqb_spec j i) as [->|E]; [|eauto]. rewrite Hb in Hj. inversion Hj. exists b. split; [assumption|reflexivity]. }
    destruct (X j b1 Hj) as (c1 & G1 & F1). destruct (X j' b2 Hj') as (c2 & G2 & F2). apply (H6 j j' c1 c2 G1 G2). congruence.
  - intros h Hh. apply H7. intros j b' Hj. destruct (Nat.eq_dec j i) as [->|E].
    + intros X. apply (Hh i (set_count b (S (b_count b)))); [rewrite nth_error_upd, Nat.eqb_refl, Hb; reflexivity|]. rewrite Hb in Hj. inversion Hj; subst; reflexivity.
    + apply (Hh j b'). rewrite nth_error_upd. destruct (Nat.eqb_spec j i); [contradiction|assumption].
  - cbn [w_vars w_locals w_blocks w_trace w_next set_blocks]. split; [reflexivity|]. split; [reflexivity|]. split; [reflexivity|]. split; [reflexivity|]. split; [apply upd_length|].
    intros j b' Hj. rewrite nth_error_upd. destruct (Nat.eqb_spec j i) as [->|E]; [|exists b'; auto].
    rewrite Hb in Hj |- *. inversion Hj; subst b'. eexists. split; [reflexivity|]. cbn. repeat split; lia.
Qed.

Lemma sp_dec_inv p w k n : hinv k n w -> (forall i, points (Some p) i = true -> (k i <> 0)%nat /\ (i < List.length (w_blocks w))%nat) ->
  exists w', sp_dec p w = Ok w' /\ hinv (fun i => k i - one p i)%nat n w' /\ w_vars w' = w_vars w /\ w_locals w' = w_locals w /\
    w_next w' = w_next w /\ List.length (w_blocks w') = List.length (w_blocks w) /\
    (forall h, filter (is_acq h) (w_trace w') = filter (is_acq h) (w_trace w) /\ filter (is_rel h) (w_trace w') = filter (is_rel h) (w_trace w)) /\
    (forall i b, nth_error (w_blocks w) i = Some b -> exists b', nth_error (w_blocks w') i = Some b' /\ b_handle b' = b_handle b /\ b_policy b' = b_policy b).
Proof.
  intros H Hp. destruct p as [i|]; cbn [sp_dec].
  2:{ exists w. split; [reflexivity|]. split; [|repeat split; eauto 6].
      destruct H as [H1 H2 H3 H4 H5 H6 H7 H8]; constructor; try assumption.
      intros i b Hb. rewrite (H3 i b Hb). unfold one. cbn [points]. lia. }
  destruct (Hp i) as (Hk & Hi); [cbn; apply Nat.eqb_refl|].
  destruct (nth_error (w_blocks w) i) as [b|] eqn:Hb; [|apply nth_error_None in Hb; lia].
  destruct H as [H1 H2 H3 H4 H5 H6 H7 H8]. pose proof (H3 i b Hb) as Hc. destruct (b_count b) as [|c] eqn:Ec; [lia|].
  eexists. split; [reflexivity|]. set (w1 := set_blocks _ w). set (w' := match c with O => _ | S _ => w1 end).
  assert (Q : w_vars w' = w_vars w /\ w_locals w' = w_locals w /\ w_next w' = w_next w /\ w_blocks w' = upd (w_blocks w) i (set_count b c) /\
    w_trace w' = (match c with O => w_trace w ++ [EUnregister (b_policy b) (b_handle b)] | S _ => w_trace w end)) by (destruct c; repeat split; reflexivity).
  destruct Q as (Q1 & Q2 & Q3 & Q4 & Q5). clearbody w'. clear w1.
  assert (X : forall j b1, nth_error (w_blocks w') j = Some b1 ->
      exists b0, nth_error (w_blocks w) j = Some b0 /\ b_handle b1 = b_handle b0 /\ b_policy b1 = b_policy b0 /\ (if Nat.eqb j i then b0 = b /\ b_count b1 = c else b1 = b0)).
  { intros j b1 Hj. rewrite Q4, nth_error_upd in Hj. destruct (Nat.eqb_spec j i) as [->|E]; [|exists b1; auto]. rewrite Hb in Hj. inversion Hj. exists b. repeat split; auto. }
  assert (Y : forall j b0, nth_error (w_blocks w) j = Some b0 -> exists b1, nth_error (w_blocks w') j = Some b1 /\ b_handle b1 = b_handle b0 /\ b_policy b1 = b_policy b0).
  { intros j b0 Hj. rewrite Q4, nth_error_upd, Hj. destruct (Nat.eqb_spec j i) as [->|E]; [|exists b0; auto]. rewrite Hb in Hj. inversion Hj; subst. eexists. split; [reflexivity|]. split; reflexivity. }
  split; [constructor|].
  - rewrite Q1, Q2. assumption.
  - rewrite Q1, Q2, Q4. intros x j Hj. rewrite upd_length. eapply H2; eassumption.
  - intros j b1 Hj. destruct (X j b1 Hj) as (b0 & G0 & _ & _ & G). unfold owners. rewrite Q1, Q2. unfold one. cbn [points].
    pose proof (H3 j b0 G0) as G3. unfold owners in G3, Hc. destruct (Nat.eqb_spec j i) as [->|E].
    + destruct G as [-> G]. rewrite G, Nat.eqb_refl. lia.
    + subst b1. rewrite G3. destruct (Nat.eqb_spec i j); [congruence|]. lia.
  - intros j b1 Hj. destruct (X j b1 Hj) as (b0 & G0 & F1 & F2 & G). rewrite F1, F2.
    assert (Hf : filter (is_unreg (b_handle b0)) (w_trace w') = filter (is_unreg (b_handle b0)) (w_trace w) ++ (if Nat.eqb c 0 && Nat.eqb j i then [EUnregister (b_policy b) (b_handle b)] else [])).
    { rewrite Q5. destruct c as [|c]; cbn [Nat.eqb andb]; [|rewrite app_nil_r; reflexivity]. rewrite filter_app. f_equal. cbn [filter is_unreg].
      destruct (Nat.eqb_spec j i) as [->|E]; [destruct G as [-> _]; rewrite Nat.eqb_refl; reflexivity|].
      destruct (Nat.eqb_spec (b_handle b) (b_handle b0)) as [Eh|]; [|reflexivity]. exfalso. apply E. symmetry. eapply H6; eassumption. }
    rewrite Hf, (H4 j b0 G0). destruct (Nat.eqb_spec j i) as [->|E].
    + destruct G as [-> ->]. rewrite Ec. cbn [Nat.eqb]. destruct c; cbn; reflexivity.
    + subst b1. rewrite andb_false_r, app_nil_r. reflexivity.
  - intros j b1 Hj. destruct (X j b1 Hj) as (b0 & G0 & F1 & _). rewrite F1, Q3. eapply H5; eassumption.
  - intros j j' b1 b2 Hj Hj' He. destruct (X j b1 Hj) as (c1 & G1 & F1 & _). destruct (X j' b2 Hj') as (c2 & G2 & F2 & _). apply (H6 j j' c1 c2 G1 G2). congruence.
  - intros h Hh. assert (Hn : forall j b0, nth_error (w_blocks w) j = Some b0 -> b_handle b0 <> h).
    { intros j b0 Hj. destruct (Y j b0 Hj) as (b1 & G1 & F1 & _). rewrite <- F1. eapply Hh; eassumption. }
    rewrite Q5. destruct c; [|apply H7; assumption]. rewrite filter_app, H7 by assumption. cbn [filter is_unreg app].
    destruct (Nat.eqb_spec (b_handle b) h) as [E|]; [|reflexivity]. exfalso. apply (Hn i b Hb E).
  - intros h. rewrite Q3, <- H8, Q5. destruct c; [|reflexivity]. rewrite filter_app. cbn [filter is_reg]. apply app_nil_r.
  - split; [assumption|]. split; [assumption|]. split; [assumption|]. split; [rewrite Q4; apply upd_length|]. split; [|assumption].
    intros h. rewrite Q5. destruct c; [|split; reflexivity]. rewrite !filter_app. cbn [filter is_acq is_rel]. rewrite !app_nil_r. split; reflexivity.
Qed.

Lemma set_var_inv x v w k k' n : hinv k n w -> (x < n)%nat -> (forall i, points v i = true -> (i < List.length (w_blocks w))%nat) ->
  (forall i, k' i + (if points v i then 1 else 0) = k i + (if points (w_vars w x) i then 1 else 0))%nat -> hinv k' n (set_var x v w).
Proof.
  intros [H1 H2 H3 H4 H5 H6 H7 H8] Hx Hv Hk. constructor; cbn [w_vars w_locals w_blocks w_trace w_next set_var]; try assumption.
  - intros y Hy. destruct (Nat.eqb_spec y x); [lia|]. apply H1, Hy.
  - intros y i Hi. destruct (Nat.eqb_spec y x) as [->|]; [|eapply H2; eassumption]. destruct Hi as [Hi|Hi]; [apply Hv, Hi|eapply H2; eauto].
  - intros i b Hb. rewrite (H3 i b Hb). unfold owners. cbn [w_vars w_locals set_var]. specialize (Hk i).
    pose proof (cnt_upd (fun y => points (w_vars w y) i) x (points v i) n Hx) as Hc. cbv beta in Hc.
    rewrite (cnt_ext (fun x0 => points (if Nat.eqb x0 x then v else w_vars w x0) i) (fun y => if Nat.eqb y x then points v i else points (w_vars w y) i) n).
    2:{ intros y _. destruct (Nat.eqb y x); reflexivity. }
    lia.
Qed.
Lemma set_local_inv x v w k k' n : hinv k n w -> (x < n)%nat -> (forall i, points (lptr v) i = true -> (i < List.length (w_blocks w))%nat) ->
  (forall i, k' i + (if points (lptr v) i then 1 else 0) = k i + (if points (lptr (w_locals w x)) i then 1 else 0))%nat -> hinv k' n (set_local x v w).
Proof.
  intros [H1 H2 H3 H4 H5 H6 H7 H8] Hx Hv Hk. constructor; cbn [w_vars w_locals w_blocks w_trace w_next set_local]; try assumption.
  - intros y Hy. destruct (Nat.eqb_spec y x); [lia|]. apply H1, Hy.
  - intros y i Hi. destruct (Nat.eqb_spec y x) as [->|]; [|eapply H2; eassumption]. destruct Hi as [Hi|Hi]; [eapply H2; eauto|apply Hv, Hi].
  - intros i b Hb. rewrite (H3 i b Hb). unfold owners. cbn [w_vars w_locals set_local]. specialize (Hk i).
    pose proof (cnt_upd (fun y => points (lptr (w_locals w y)) i) x (points (lptr v) i) n Hx) as Hc. cbv beta in Hc.
    rewrite (cnt_ext (fun x0 => points (lptr (if Nat.eqb x0 x then v else w_locals w x0)) i) (fun y => if Nat.eqb y x then points (lptr v) i else points (lptr (w_locals w y)) i) n).
    2:{ intros y _. destruct (Nat.eqb y x); reflexivity. }
    lia.
Qed.
Lemma hinv_ext k k' n w : (forall i, k i = k' i) -> hinv k n w -> hinv k' n w.
Proof. intros E [H1 H2 H3 H4 H5 H6 H7 H8]. constructor; try assumption. intros i b Hb. rewrite <- E. auto. Qed.
(** Acquire and release events do not matter for registration. *)
Lemma emit_inv e k n w : hinv k n w -> (forall h, is_unreg h e = false /\ is_reg h e = false) -> hinv k n (emit e w).
Proof.
  intros [H1 H2 H3 H4 H5 H6 H7 H8] He. constructor; cbn [w_vars w_locals w_blocks w_trace w_next emit]; try assumption.
  - intros i b Hb. rewrite filter_app. cbn [filter]. rewrite (proj1 (He _)), app_nil_r. apply (H4 i b Hb).
  - intros h Hh. rewrite filter_app. cbn [filter]. rewrite (proj1 (He _)), app_nil_r. apply (H7 h Hh).
  - intros h. rewrite filter_app. cbn [filter]. rewrite (proj2 (He _)), app_nil_r. apply H8.
Qed.

(** The precondition of each step: constructed objects are new, used objects are alive, and only a non-empty handle is acquired. *)
Definition hready (o : hop) (w : world) : Prop :=
  match o with
  | HDefault x | HVariable x _ _ => w_vars w x = None
  | HCopy x y => w_vars w x = None /\ w_vars w y <> None
  | HAssign x y => w_vars w x <> None /\ w_vars w y <> None
  | HUnregister x | HDestroy x => w_vars w x <> None
  | LAcquire l x _ => w_locals w l = None /\ exists i, w_vars w x = Some (Some i)
  | LReacquire l _ | LRelease l => exists i a, w_locals w l = Some (mkLocal (Some i) a)
  | LCopy l l' => w_locals w l = None /\ w_locals w l' <> None
  | LDestroy l => w_locals w l <> None /\ (forall a, w_locals w l = Some (mkLocal None a) -> a = false)
  end.
Definition zk (_ : nat) : nat := O.
Definition grow (w w' : world) : Prop := (w_next w <= w_next w')%nat /\
  (forall i b, nth_error (w_blocks w) i = Some b -> exists b', nth_error (w_blocks w') i = Some b' /\ b_handle b' = b_handle b /\ b_policy b' = b_policy b) /\
  (forall i b, nth_error (w_blocks w') i = Some b -> (List.length (w_blocks w) <= i)%nat -> (w_next w <= b_handle b)%nat).

Lemma grow_refl w : grow w w.
Proof. split; [lia|]. split; [intros i b Hb; exists b; auto|]. intros i b Hb Hi. exfalso. assert (i < List.length (w_blocks w))%nat by (apply nth_error_Some; congruence). lia. Qed.
Lemma grow_trans w1 w2 w3 : grow w1 w2 -> grow w2 w3 -> grow w1 w3.
Proof.
  intros (A1 & A2 & A3) (B1 & B2 & B3). split; [lia|]. split.
  - intros i b Hb. destruct (A2 i b Hb) as (b' & Hb' & E1 & E2). destruct (B2 i b' Hb') as (b2 & Hb2 & E3 & E4). exists b2. repeat split; congruence.
  - intros i b Hb Hi. destruct (Nat.lt_ge_cases i (List.length (w_blocks w2))) as [Hl|Hl]; [|specialize (B3 i b Hb Hl); lia].
    destruct (nth_error (w_blocks w2) i) as [b'|] eqn:E; [|apply nth_error_None in E; lia].
    destruct (B2 i b' E) as (b2 & Hb2 & E3 & _). specialize (A3 i b' E Hi). assert (b2 = b) by congruence. subst. lia.
Qed.
Lemma grow_same w w' : w_next w' = w_next w -> List.length (w_blocks w') = List.length (w_blocks w) ->
  (forall i b, nth_error (w_blocks w) i = Some b -> exists b', nth_error (w_blocks w') i = Some b' /\ b_handle b' = b_handle b /\ b_policy b' = b_policy b) -> grow w w'.
Proof. intros E1 E2 H. split; [lia|]. split; [assumption|]. intros i b Hb Hi. exfalso. assert (i < List.length (w_blocks w'))%nat by (apply nth_error_Some; congruence). lia. Qed.

Lemma owner_block k n w x i : hinv k n w -> points (w_vars w x) i = true \/ points (lptr (w_locals w x)) i = true ->
  exists b, nth_error (w_blocks w) i = Some b /\ b_count b <> O.
Proof.
  intros H Hp. pose proof (hi_valid _ _ _ H x i Hp) as Hi. destruct (nth_error (w_blocks w) i) as [b|] eqn:Hb; [|apply nth_error_None in Hb; lia].
  exists b. split; [reflexivity|]. rewrite (hi_count _ _ _ H i b Hb). unfold owners.
  assert (Hx : (x < n)%nat).
  { destruct (Nat.lt_ge_cases x n) as [|Hg]; [assumption|]. destruct (hi_dead _ _ _ H x Hg) as [E1 E2]. rewrite E1, E2 in Hp. cbn in Hp. destruct Hp; discriminate. }
  destruct Hp as [Hp|Hp].
  - pose proof (cnt_pos (fun x => points (w_vars w x) i) n x Hx Hp). lia.
  - pose proof (cnt_pos (fun x => points (lptr (w_locals w x)) i) n x Hx Hp). lia.
Qed.

Definition hop_ids (o : hop) : nat :=
  match o with
  | HDefault x | HVariable x _ _ | HUnregister x | HDestroy x | LReacquire x _ | LRelease x | LDestroy x => x
  | HCopy x y | HAssign x y | LAcquire x y _ | LCopy x y => x + y
  end.

Lemma hstep_inv o w n : hinv zk n w -> hready o w -> (hop_ids o < n)%nat ->
  exists w' t, hstep o w = Ok (w', t) /\ hinv zk n w' /\ grow w w'.
Proof.
  intros H Hr Hn. pose proof (owner_block zk n w) as HB.
  assert (SV : forall x v w', grow w w' -> grow w (set_var x v w')) by (intros x v w' (A & B & C); split; [exact A|split; [exact B|exact C]]).
  assert (SL : forall x v w', grow w w' -> grow w (set_local x v w')) by (intros x v w' (A & B & C); split; [exact A|split; [exact B|exact C]]).
  destruct o as [x|x size m|x y|x y|x|x|l x st|l st|l|l l'|l]; cbn [hready hop_ids] in Hr, Hn; cbn [hstep].
  - unfold fresh_var. rewrite Hr, bind_Ok. do 2 eexists. split; [reflexivity|]. split; [|apply SV, grow_refl].
    eapply set_var_inv; [exact H|exact Hn|discriminate|]. intros i. rewrite Hr. reflexivity.
  - unfold fresh_var. rewrite Hr, bind_Ok. destruct (Z.eqb_spec size 0) as [_|_]; [do 2 eexists; split; [reflexivity|split; [assumption|apply grow_refl]]|].
    cbv zeta. set (w1 := emit _ _).
    assert (H1 : hinv zk n w1).
    { destruct H as [H1 H2 H3 H4 H5 H6 H7 H8]. constructor; cbn [w_vars w_locals w_blocks w_trace w_next emit w1]; try assumption.
      - intros i b Hb. rewrite filter_app. cbn [filter is_unreg]. rewrite app_nil_r. apply (H4 i b Hb).
      - intros i b Hb. specialize (H5 i b Hb). lia.
      - intros h Hh. rewrite filter_app. cbn [filter is_unreg]. rewrite app_nil_r. apply (H7 h Hh).
      - intros h. rewrite filter_app, H8. cbn [filter is_reg]. destruct (Nat.ltb_spec h (w_next w)), (Nat.ltb_spec h (S (w_next w))), (Nat.eqb_spec (w_next w) h); subst; try lia; reflexivity. }
    assert (G1 : grow w w1).
    { split; [cbn; lia|]. split; [intros i b Hb; exists b; auto|]. cbn. intros i b Hb Hi. exfalso. assert (i < List.length (w_blocks w))%nat by (apply nth_error_Some; congruence). lia. }
    destruct (deleter_of m) as [p|]; [|do 2 eexists; split; [reflexivity|split; assumption]].
    do 2 eexists. split; [reflexivity|]. cbn [w_blocks emit w1]. set (w2 := set_blocks _ w1).
    assert (Hsplit : forall i b, nth_error (w_blocks w ++ [mkBlock (w_next w) p 1]) i = Some b ->
      nth_error (w_blocks w) i = Some b \/ (i = List.length (w_blocks w) /\ b = mkBlock (w_next w) p 1)).
    { intros i b Hb. destruct (Nat.lt_ge_cases i (List.length (w_blocks w))) as [Hi|Hi].
      - rewrite nth_error_app1 in Hb by assumption. left. assumption.
      - rewrite nth_error_app2 in Hb by assumption. right. destruct (i - List.length (w_blocks w))%nat as [|j] eqn:E; [|destruct j; discriminate Hb].
        inversion Hb. split; [lia|reflexivity]. }
    assert (H2 : hinv (fun i => if Nat.eqb i (List.length (w_blocks w)) then 1%nat else 0%nat) n w2).
    { destruct H as [A1 A2 A3 A4 A5 A6 A7 A8]. destruct H1 as [B1 B2 B3 B4 B5 B6 B7 B8].
      constructor; cbn [w_vars w_locals w_blocks w_trace w_next emit w1 w2 set_blocks] in *; try assumption.
      - intros x0 i Hi. rewrite app_length. specialize (A2 x0 i Hi). lia.
      - intros i b Hb. unfold owners. cbn [w_vars w_locals w2 w1 set_blocks emit]. destruct (Hsplit i b Hb) as [Hb'|[-> ->]].
        + assert (i < List.length (w_blocks w))%nat by (apply nth_error_Some; congruence). destruct (Nat.eqb_spec i (List.length (w_blocks w))); [lia|].
          rewrite (A3 i b Hb'). reflexivity.
        + rewrite Nat.eqb_refl. cbn [b_count]. rewrite !cnt_zero; [reflexivity| |]; intros y _;
            [destruct (points (lptr (w_locals w y)) _) eqn:E|destruct (points (w_vars w y) _) eqn:E]; try reflexivity; exfalso;
            specialize (A2 y (List.length (w_blocks w))); rewrite E in A2; specialize (A2 ltac:(auto)); lia.
      - intros i b Hb. destruct (Hsplit i b Hb) as [Hb'|[-> ->]]; [apply (B4 i b Hb')|]. cbn [b_handle b_count b_policy Nat.eqb].
        apply B7. intros i b' Hb' E. specialize (A5 i b' Hb'). lia.
      - intros i b Hb. destruct (Hsplit i b Hb) as [Hb'|[-> ->]]; [apply (B5 i b Hb')|]. cbn [b_handle]. lia.
      - intros i j b b' Hb Hb' E. destruct (Hsplit i b Hb) as [G|[-> ->]], (Hsplit j b' Hb') as [G'|[-> ->]]; try reflexivity.
        + eapply A6; eassumption.
        + specialize (A5 i b G). cbn in E. lia.
        + specialize (A5 j b' G'). cbn in E. lia.
      - intros h Hh. apply B7. intros i b Hb. apply (Hh i b). rewrite nth_error_app1; [assumption|]. apply nth_error_Some. congruence. }
    split.
    + eapply set_var_inv; [exact H2|exact Hn| |].
      * intros i Hi. cbn [points] in Hi. apply Nat.eqb_eq in Hi. subst i. cbn [w_blocks w2 set_blocks]. rewrite app_length. cbn [List.length]. lia.
      * intros i. cbn [w_vars w2 w1 set_blocks emit]. rewrite Hr. cbn [points]. rewrite Nat.eqb_sym. unfold zk. destruct (Nat.eqb _ _); reflexivity.
    + apply SV. split; [cbn; lia|]. split.
      * intros i b Hb. exists b. split; [|split; reflexivity]. cbn [w_blocks w2 set_blocks]. rewrite nth_error_app1; [assumption|]. apply nth_error_Some. congruence.
      * intros i b Hb Hi. cbn [w_blocks w2 set_blocks] in Hb. destruct (Hsplit i b Hb) as [G|[-> ->]]; [|cbn; lia]. exfalso. assert (i < List.length (w_blocks w))%nat by (apply nth_error_Some; congruence). lia.
  - destruct Hr as [Hx Hy]. unfold fresh_var, var. rewrite Hx, bind_Ok. destruct (w_vars w y) as [p|] eqn:Ey; [|contradiction]. rewrite bind_Ok.
    destruct (sp_inc_inv p w zk n H) as (w' & E & H' & V' & L' & T' & N' & Lb & B').
    { intros i Hi. apply (HB y i H). left. rewrite Ey. assumption. }
    rewrite E, bind_Ok. do 2 eexists. split; [reflexivity|]. split.
    + eapply set_var_inv; [exact H'|lia| |].
      * intros i Hi. rewrite Lb. apply (hi_valid _ _ _ H y i). left. rewrite Ey. assumption.
      * intros i. rewrite V', Hx. unfold one, zk. cbn [points]. lia.
    + apply SV, grow_same; [assumption..|]. intros i b Hb. destruct (B' i b Hb) as (b' & Q1 & Q2 & Q3 & _). exists b'. auto.
  - destruct Hr as [Hx Hy]. unfold var. destruct (w_vars w x) as [q|] eqn:Ex; [|contradiction]. rewrite bind_Ok.
    destruct (w_vars w y) as [p|] eqn:Ey; [|contradiction]. rewrite bind_Ok.
    destruct (sp_inc_inv p w zk n H) as (w' & E & H' & V' & L' & T' & N' & Lb & B').
    { intros i Hi. apply (HB y i H). left. rewrite Ey. assumption. }
    rewrite E, bind_Ok.
    assert (H2 : hinv (one q) n (set_var x (Some p) w')).
    { eapply set_var_inv; [exact H'|lia| |].
      * intros i Hi. rewrite Lb. apply (hi_valid _ _ _ H y i). left. rewrite Ey. assumption.
      * intros i. rewrite V', Ex. unfold one, zk. destruct (points (Some q) i), (points (Some p) i); reflexivity. }
    destruct (sp_dec_inv q _ (one q) n H2) as (w2 & E2 & H2' & V2 & L2 & N2 & Lb2 & A2 & B2).
    { intros i Hi. unfold one. rewrite Hi. split; [lia|]. cbn [w_blocks set_var]. rewrite Lb. apply (hi_valid _ _ _ H x i). left. rewrite Ex. assumption. }
    rewrite E2, bind_Ok. do 2 eexists. split; [reflexivity|]. split.
    + eapply hinv_ext; [|exact H2']. intros i. unfold zk. lia.
    + apply grow_same; [rewrite N2; exact N'|rewrite Lb2; exact Lb|]. intros i b Hb. destruct (B' i b Hb) as (b' & Q1 & Q2 & Q3 & _).
      destruct (B2 i b' Q1) as (b2 & R1 & R2 & R3). exists b2. repeat split; congruence.
  - unfold var. destruct (w_vars w x) as [q|] eqn:Ex; [|contradiction]. rewrite bind_Ok.
    assert (H2 : hinv (one q) n (set_var x (Some None) w)).
    { eapply set_var_inv; [exact H|lia|discriminate|]. intros i. rewrite Ex. unfold one, zk. cbn [points]. lia. }
    destruct (sp_dec_inv q _ (one q) n H2) as (w2 & E2 & H2' & V2 & L2 & N2 & Lb2 & A2 & B2).
    { intros i Hi. unfold one. rewrite Hi. split; [lia|]. cbn [w_blocks set_var]. apply (hi_valid _ _ _ H x i). left. rewrite Ex. assumption. }
    rewrite E2, bind_Ok. do 2 eexists. split; [reflexivity|]. split.
    + eapply hinv_ext; [|exact H2']. intros i. unfold zk. lia.
    + apply grow_same; assumption.
  - unfold var. destruct (w_vars w x) as [q|] eqn:Ex; [|contradiction]. rewrite bind_Ok.
    assert (H2 : hinv (one q) n (set_var x None w)).
    { eapply set_var_inv; [exact H|lia|discriminate|]. intros i. rewrite Ex. unfold one, zk. cbn [points]. lia. }
    destruct (sp_dec_inv q _ (one q) n H2) as (w2 & E2 & H2' & V2 & L2 & N2 & Lb2 & A2 & B2).
    { intros i Hi. unfold one. rewrite Hi. split; [lia|]. cbn [w_blocks set_var]. apply (hi_valid _ _ _ H x i). left. rewrite Ex. assumption. }
    rewrite E2, bind_Ok. do 2 eexists. split; [reflexivity|]. split.
    + eapply hinv_ext; [|exact H2']. intros i. unfold zk. lia.
    + apply grow_same; assumption.
  - destruct Hr as [Hl (i0 & Ex)]. unfold fresh_local, var. rewrite Hl, bind_Ok, Ex, bind_Ok.
    destruct (sp_inc_inv (Some i0) w zk n H) as (w' & E & H' & V' & L' & T' & N' & Lb & B').
    { intros i Hi. apply (HB x i H). left. rewrite Ex. assumption. }
    rewrite E, bind_Ok. destruct (HB x i0 H) as (b & Hb & Hc); [left; rewrite Ex; cbn; apply Nat.eqb_refl|].
    destruct (B' i0 b Hb) as (b' & Hb' & _). unfold raw. rewrite Hb', bind_Ok.
    assert (G : grow w w') by (apply grow_same; [assumption..|]; intros i b1 Hb1; destruct (B' i b1 Hb1) as (b2 & Q1 & Q2 & Q3 & _); exists b2; auto).
    destruct (negb (st =? 0)).
    + destruct (sp_dec_inv (Some i0) w' (fun i => zk i + one (Some i0) i)%nat n H') as (w2 & E2 & H2' & V2 & L2 & N2 & Lb2 & A2 & B2).
      { intros i Hi. unfold one. rewrite Hi. split; [lia|]. rewrite Lb. apply (hi_valid _ _ _ H x i). left. rewrite Ex. assumption. }
      rewrite E2, bind_Ok. do 2 eexists. split; [reflexivity|]. split; [eapply hinv_ext; [|exact H2']; intros i; unfold zk; lia|].
      eapply grow_trans; [exact G|]. apply grow_same; assumption.
    + do 2 eexists. split; [reflexivity|]. split; [|exact G].
      apply emit_inv; [|intros h; split; reflexivity]. eapply set_local_inv; [exact H'|lia| |].
      * intros i Hi. rewrite Lb. apply (hi_valid _ _ _ H x i). left. rewrite Ex. assumption.
      * intros i. rewrite L', Hl. unfold one, zk. cbn [lptr option_map l_handle points]. lia.
  - destruct Hr as (i0 & a & El). unfold loc. rewrite El, bind_Ok. cbn [l_handle].
    destruct (HB l i0 H) as (b & Hb & Hc); [right; rewrite El; cbn; apply Nat.eqb_refl|]. unfold raw. rewrite Hb, bind_Ok.
    destruct (negb (st =? 0)); [do 2 eexists; split; [reflexivity|split; [assumption|apply grow_refl]]|].
    do 2 eexists. split; [reflexivity|]. split; [|exact (grow_refl w)].
    apply emit_inv; [|intros h; split; reflexivity]. eapply set_local_inv; [exact H|lia| |].
    * intros i Hi. apply (hi_valid _ _ _ H l i). right. rewrite El. assumption.
    * intros i. rewrite El. reflexivity.
  - destruct Hr as (i0 & a & El). unfold loc. rewrite El, bind_Ok. cbn [l_handle].
    destruct (HB l i0 H) as (b & Hb & Hc); [right; rewrite El; cbn; apply Nat.eqb_refl|]. unfold raw. rewrite Hb, bind_Ok.
    do 2 eexists. split; [reflexivity|]. split; [|exact (grow_refl w)].
    apply emit_inv; [|intros h; split; reflexivity]. eapply set_local_inv; [exact H|lia| |].
    * intros i Hi. apply (hi_valid _ _ _ H l i). right. rewrite El. assumption.
    * intros i. rewrite El. reflexivity.
  - destruct Hr as [Hl Hl']. unfold fresh_local, loc. rewrite Hl, bind_Ok. destruct (w_locals w l') as [d|] eqn:Ed; [|contradiction]. rewrite bind_Ok.
    destruct (sp_inc_inv (l_handle d) w zk n H) as (w' & E & H' & V' & L' & T' & N' & Lb & B').
    { intros i Hi. apply (HB l' i H). right. rewrite Ed. assumption. }
    rewrite E, bind_Ok. do 2 eexists. split; [reflexivity|]. split.
    + eapply set_local_inv; [exact H'|lia| |].
      * intros i Hi. rewrite Lb. apply (hi_valid _ _ _ H l' i). right. rewrite Ed. assumption.
      * intros i. rewrite L', Hl. unfold one, zk. cbn [lptr option_map points]. lia.
    + apply SL, grow_same; [assumption..|]. intros i b Hb. destruct (B' i b Hb) as (b' & Q1 & Q2 & Q3 & _). exists b'. auto.
  - destruct Hr as [Hl Ha]. unfold loc. destruct (w_locals w l) as [d|] eqn:Ed; [|contradiction]. rewrite bind_Ok.
    assert (Hw1 : exists w1, (if l_acquired d then h <- raw w (l_handle d) ;; Ok (emit (ERelease h) w) else Ok w) = Ok w1 /\ hinv zk n w1 /\
       w_vars w1 = w_vars w /\ w_locals w1 = w_locals w /\ w_blocks w1 = w_blocks w /\ w_next w1 = w_next w).
    { destruct d as [[i0|] a]; cbn [l_acquired l_handle].
      - destruct (HB l i0 H) as (b & Hb & Hc); [right; rewrite Ed; cbn; apply Nat.eqb_refl|]. unfold raw. rewrite Hb, bind_Ok.
        destruct a; [|exists w; auto 7]. exists (emit (ERelease (b_handle b)) w). split; [reflexivity|]. split; [apply emit_inv; [exact H|intros h; split; reflexivity]|auto].
      - rewrite (Ha a eq_refl). exists w. auto 7. }
    destruct Hw1 as (w1 & E1 & H1 & V1 & L1 & Bl1 & N1). rewrite E1, bind_Ok.
    assert (H2 : hinv (one (l_handle d)) n (set_local l None w1)).
    { eapply set_local_inv; [exact H1|lia|discriminate|]. intros i. rewrite L1, Ed. unfold one, zk. cbn [lptr option_map points]. lia. }
    destruct (sp_dec_inv (l_handle d) _ (one (l_handle d)) n H2) as (w2 & E2 & H2' & V2 & L2 & N2 & Lb2 & A2 & B2).
    { intros i Hi. unfold one. rewrite Hi. split; [lia|]. cbn [w_blocks set_local]. rewrite Bl1. apply (hi_valid _ _ _ H l i). right. rewrite Ed. assumption. }
    rewrite E2, bind_Ok. do 2 eexists. split; [reflexivity|]. split.
    + eapply hinv_ext; [|exact H2']. intros i. unfold zk. lia.
    + apply grow_same; [rewrite N2; exact N1|rewrite Lb2; cbn [w_blocks set_local]; rewrite Bl1; reflexivity|].
      intros i b Hb. apply (B2 i b). cbn [w_blocks set_local]. rewrite Bl1. assumption.
Qed.

Lemma hstep_ready o w w' t : hstep o w = Ok (w', t) -> hready o w.
Proof.
  destruct o as [x|x size m|x y|x y|x|x|l x st|l st|l|l l'|l]; cbn [hstep hready]; unfold fresh_var, fresh_local, var, loc; intros E.
  - destruct (w_vars w x); [discriminate|reflexivity].
  - destruct (w_vars w x); [discriminate|reflexivity].
  - destruct (w_vars w x); [discriminate|]. rewrite bind_Ok in E. destruct (w_vars w y); [|discriminate]. split; congruence.
  - destruct (w_vars w x); [|discriminate]. rewrite bind_Ok in E. destruct (w_vars w y); [|discriminate]. split; congruence.
  - destruct (w_vars w x); [|discriminate]. congruence.
  - destruct (w_vars w x); [|discriminate]. congruence.
  - destruct (w_locals w l); [discriminate|]. rewrite bind_Ok in E. destruct (w_vars w x) as [[i|]|]; [|discriminate|discriminate].
    split; [reflexivity|eauto].
  - destruct (w_locals w l) as [[[i|] a]|]; [eauto|discriminate|discriminate].
  - destruct (w_locals w l) as [[[i|] a]|]; [eauto|discriminate|discriminate].
  - destruct (w_locals w l); [discriminate|]. rewrite bind_Ok in E. destruct (w_locals w l'); [|discriminate]. split; congruence.
  - destruct (w_locals w l) as [d|]; [|discriminate]. split; [congruence|]. intros a Ha. inversion Ha; subst d. rewrite bind_Ok in E.
    destruct a; [discriminate E|reflexivity].
Qed.

Lemma hinv0 : hinv zk 0 world0.
Proof. constructor; cbn; try discriminate; try reflexivity; try (intros; split; reflexivity); try (intros [|?] ? H; discriminate H); try (intros [|?] ? ? ? H; discriminate H).
  intros x i [H|H]; discriminate H. Qed.

Lemma hrun_inv os : forall w w' n, hinv zk n w -> hrun os w = Ok w' -> exists n', hinv zk n' w' /\ grow w w'.
Proof.
  induction os as [|o os IH]; intros w w' n H E; cbn [hrun] in E.
  - inversion E; subst. exists n. split; [assumption|apply grow_refl].
  - destruct (hstep o w) as [[w1 t]| |] eqn:E1; try discriminate. rewrite bind_Ok in E.
    pose proof (hstep_ready _ _ _ _ E1) as Hr. assert (H' : hinv zk (n + S (hop_ids o)) w) by (eapply hinv_more; [|exact H]; lia).
    destruct (hstep_inv o w _ H' Hr ltac:(lia)) as (w1' & t' & E1' & H1 & G1). assert (w1' = w1) by congruence. subst.
    destruct (IH _ _ _ H1 E) as (n' & H2 & G2). exists n'. split; [assumption|eapply grow_trans; eassumption].
Qed.
Lemma hrun_app os1 os2 w : hrun (os1 ++ os2) w = w1 <- hrun os1 w ;; hrun os2 w1.
Proof.
  revert w. induction os1 as [|o os1 IH]; intros w; cbn [app hrun]; [rewrite bind_Ok; reflexivity|].
  destruct (hstep o w) as [[w1 t]| |]; [rewrite !bind_Ok; apply IH|reflexivity|reflexivity].
Qed.

(** Someone still owns the raw handle h: a Handle object or a HandleLocalData object. *)
Definition owned (w : world) (h : nat) : Prop :=
  (exists x p, w_vars w x = Some p /\ raw w p = Ok h) \/ (exists l d, w_locals w l = Some d /\ raw w (l_handle d) = Ok h).

(** Constructing a VariableHandle of non-zero size with a valid mode m, somewhere in a history, registers a new raw handle h once;
    whatever happens afterwards, h has been unregistered with the policy for m exactly once if nobody owns it, and not at all otherwise. *)
Theorem C38_unregistered_once (os1 os2 : list hop) x size m p w1 w :
  hrun os1 world0 = Ok w1 -> size <> 0 ->
  In (m, p) [(MR, Unregister_no_coherency); (MRW, Unregister); (MW, Unregister); (MSCRATCH, Unregister_submit)] ->
  hrun (os1 ++ HVariable x size m :: os2) world0 = Ok w ->
  let h := w_next w1 in
  filter (is_reg h) (w_trace w1) = [] /\ filter (is_reg h) (w_trace w) = [ERegister h] /\
  (owned w h -> filter (is_unreg h) (w_trace w) = []) /\
  (~ owned w h -> filter (is_unreg h) (w_trace w) = [EUnregister p h]).
Proof.
  intros E1 Hs Hm E h. assert (Hd : deleter_of m = Some p) by (cbn in Hm; decompose [or] Hm; match goal with H : (_, _) = (m, p) |- _ => inversion H; reflexivity | H : False |- _ => destruct H end).
  destruct (hrun_inv _ _ _ _ hinv0 E1) as (n1 & H1 & _).
  rewrite hrun_app, E1, bind_Ok in E. cbn [hrun] in E. destruct (hstep (HVariable x size m) w1) as [[w2 t]| |] eqn:E2; try discriminate. rewrite bind_Ok in E.
  pose proof (hstep_ready _ _ _ _ E2) as Hr. assert (H' : hinv zk (n1 + S x) w1) by (eapply hinv_more; [|exact H1]; lia).
  destruct (hstep_inv _ w1 _ H' Hr ltac:(cbn; lia)) as (w2' & t' & E2' & H2 & G2). assert (w2' = w2) by congruence. subst w2'. clear E2' t'.
  destruct (hrun_inv _ _ _ _ H2 E) as (n & H & G). destruct G as (Gn & Gb & _).
  assert (Hb : nth_error (w_blocks w2) (List.length (w_blocks w1)) = Some (mkBlock h p 1) /\ w_next w2 = S h).
  { cbn [hstep hready] in E2, Hr. unfold fresh_var in E2. rewrite Hr, bind_Ok in E2. destruct (Z.eqb_spec size 0); [contradiction|].
    cbv zeta in E2. rewrite Hd in E2. inversion E2; subst w2. cbn. split; [|reflexivity]. rewrite nth_error_app2, Nat.sub_diag by lia. reflexivity. }
  destruct Hb as [Hb Hn2]. destruct (Gb _ _ Hb) as (b & Hb' & Eh & Ep). cbn in Eh, Ep. set (i := List.length (w_blocks w1)) in *.
  pose proof (hi_trace _ _ _ H i b Hb') as Ht. rewrite Eh, Ep in Ht.
  assert (Ho : owned w h <-> b_count b <> O).
  { split.
    - assert (Hraw : forall q, raw w q = Ok h -> points (Some q) i = true).
      { intros [j|] Hq; [|discriminate]. cbn in Hq. destruct (nth_error (w_blocks w) j) as [b'|] eqn:Ej; [|discriminate]. inversion Hq.
        cbn. apply Nat.eqb_eq. apply (hi_inj _ _ _ H j i b' b Ej Hb'). congruence. }
      intros [(y & q & Ey & Hq)|(l & d & El & Hq)].
      + destruct (owner_block zk n w y i H) as (b' & Q1 & Q2); [left; rewrite Ey; apply Hraw, Hq|]. congruence.
      + destruct (owner_block zk n w l i H) as (b' & Q1 & Q2); [right; rewrite El; apply Hraw, Hq|]. congruence.
    - intros Hc. rewrite (hi_count _ _ _ H i b Hb') in Hc. unfold owners, zk in Hc.
      assert (Hex : forall f n, cnt f n <> O -> exists y, f y = true).
      { clear. intros f n. induction n as [|n IH]; intros Hn; cbn in Hn; [lia|]. destruct (f n) eqn:E; [eauto|]. apply IH. lia. }
      assert (Hraw : forall q, points (Some q) i = true -> raw w q = Ok h).
      { intros [j|] Hq; [|discriminate]. cbn in Hq. apply Nat.eqb_eq in Hq. subst j. cbn. rewrite Hb'. congruence. }
      destruct (Nat.eq_dec (cnt (fun x => points (w_vars w x) i) n) 0) as [Z1|Z1].
      + destruct (Hex _ _ (fun Z2 => Hc (f_equal2 Nat.add (f_equal2 Nat.add Z1 Z2) eq_refl))) as [l Hl].
        right. destruct (w_locals w l) as [d|] eqn:El; [|discriminate]. exists l, d. split; [assumption|]. apply Hraw. exact Hl.
      + destruct (Hex _ _ Z1) as [y Hy]. left. destruct (w_vars w y) as [q|] eqn:Ey; [|discriminate]. exists y, q. split; [assumption|]. apply Hraw. exact Hy. }
  split; [rewrite (hi_reg _ _ _ H1), Nat.ltb_irrefl; reflexivity|].
  split; [rewrite (hi_reg _ _ _ H); destruct (Nat.ltb_spec h (w_next w)); [reflexivity|lia]|].
  rewrite Ht, Ho. destruct (Nat.eqb_spec (b_count b) 0); split; intros; try contradiction; try tauto; reflexivity.
Qed.

(** An invalid mode makes the constructor throw and no object is created ... *)
Theorem C38_invalid_mode_throws x size m w : w_vars w x = None -> size <> 0 -> m = MCOMMUTE \/ m = MREDUX ->
  exists w', hstep (HVariable x size m) w = Ok (w', true) /\ w_vars w' = w_vars w /\ w_locals w' = w_locals w.
Proof.
  intros Hx Hs Hm. cbn [hstep]. unfold fresh_var. rewrite Hx, bind_Ok. destruct (Z.eqb_spec size 0); [contradiction|]. cbv zeta.
  destruct Hm as [-> | ->]; eexists; (split; [reflexivity|split; reflexivity]).
Qed.
(** ... but the raw handle was registered before the mode was looked at, and is never unregistered. *)
Theorem C38_invalid_mode_leak_refuted (os1 os2 : list hop) x size m w1 w : hrun os1 world0 = Ok w1 -> size <> 0 -> m = MCOMMUTE \/ m = MREDUX ->
  hrun (os1 ++ HVariable x size m :: os2) world0 = Ok w ->
  let h := w_next w1 in
  filter (is_reg h) (w_trace w) = [ERegister h] /\ filter (is_unreg h) (w_trace w) = [] /\ ~ owned w h.
Proof.
  intros E1 Hs Hm E h. assert (Hd : deleter_of m = None) by (destruct Hm as [-> | ->]; reflexivity).
  destruct (hrun_inv _ _ _ _ hinv0 E1) as (n1 & H1 & _).
  rewrite hrun_app, E1, bind_Ok in E. cbn [hrun] in E. destruct (hstep (HVariable x size m) w1) as [[w2 t]| |] eqn:E2; try discriminate. rewrite bind_Ok in E.
  pose proof (hstep_ready _ _ _ _ E2) as Hr. assert (H' : hinv zk (n1 + S x) w1) by (eapply hinv_more; [|exact H1]; lia).
  destruct (hstep_inv _ w1 _ H' Hr ltac:(cbn; lia)) as (w2' & t' & E2' & H2 & G2). assert (w2' = w2) by congruence. subst w2'. clear E2' t'.
  destruct (hrun_inv _ _ _ _ H2 E) as (n & H & Gn & Gb & Gf).
  assert (Hb : w_blocks w2 = w_blocks w1 /\ w_next w2 = S h).
  { cbn [hstep hready] in E2, Hr. unfold fresh_var in E2. rewrite Hr, bind_Ok in E2. destruct (Z.eqb_spec size 0); [contradiction|].
    cbv zeta in E2. rewrite Hd in E2. inversion E2; subst w2. cbn. split; reflexivity. }
  destruct Hb as [Hb Hn2].
  assert (Hno : forall i b, nth_error (w_blocks w) i = Some b -> b_handle b <> h).
  { intros i b Hi Eh. destruct (Nat.lt_ge_cases i (List.length (w_blocks w2))) as [Hl|Hl].
    - destruct (nth_error (w_blocks w2) i) as [b2|] eqn:Ei; [|apply nth_error_None in Ei; lia].
      destruct (Gb i b2 Ei) as (b' & Q1 & Q2 & _). assert (b' = b) by congruence. subst b'.
      rewrite Hb in Ei. pose proof (hi_lt _ _ _ H1 i b2 Ei). unfold h in *. lia.
    - specialize (Gf i b Hi Hl). rewrite Hn2, Eh in Gf. lia. }
  split; [rewrite (hi_reg _ _ _ H); destruct (Nat.ltb_spec h (w_next w)); [reflexivity|lia]|].
  split; [apply (hi_none _ _ _ H); exact Hno|].
  assert (Hraw : forall q, raw w q <> Ok h).
  { intros [j|] Hq; [|discriminate]. cbn in Hq. destruct (nth_error (w_blocks w) j) as [b|] eqn:Ej; [|discriminate]. inversion Hq. apply (Hno j b Ej). congruence. }
  intros [(y & q & _ & Hq)|(l & d & _ & Hq)]; eapply Hraw; exact Hq.
Qed.

(** No step of a history is undefined as long as it uses objects that exist (and does not acquire an empty handle). *)
Theorem C38_no_error (os : list hop) o w : hrun os world0 = Ok w -> hready o w -> exists w' t, hstep o w = Ok (w', t).
Proof.
  intros E Hr. destruct (hrun_inv _ _ _ _ hinv0 E) as (n & H & _). assert (H' : hinv zk (n + S (hop_ids o)) w) by (eapply hinv_more; [|exact H]; lia).
  destruct (hstep_inv o w _ H' Hr ltac:(lia)) as (w' & t & E' & _). eauto.
Qed.

(** *** Local access *)
Definition acq_on (d : option local) (i : nat) : bool :=
  match d with Some d => l_acquired d && points (Some (l_handle d)) i | None => false end.
Record binv (n : nat) (w : world) : Prop := {
  bi_count : forall i b, nth_error (w_blocks w) i = Some b ->
    List.length (filter (is_acq (b_handle b)) (w_trace w)) =
      (List.length (filter (is_rel (b_handle b)) (w_trace w)) + cnt (fun l => acq_on (w_locals w l) i) n)%nat;
  bi_none : forall h, (forall i b, nth_error (w_blocks w) i = Some b -> b_handle b <> h) ->
    filter (is_acq h) (w_trace w) = [] /\ filter (is_rel h) (w_trace w) = []
}.
Lemma binv_same n w w' : binv n w -> w_locals w' = w_locals w -> List.length (w_blocks w') = List.length (w_blocks w) ->
  (forall h, filter (is_acq h) (w_trace w') = filter (is_acq h) (w_trace w) /\ filter (is_rel h) (w_trace w') = filter (is_rel h) (w_trace w)) ->
  (forall i b, nth_error (w_blocks w) i = Some b -> exists b', nth_error (w_blocks w') i = Some b' /\ b_handle b' = b_handle b) -> binv n w'.
Proof.
  intros [H1 H2] EL EB ET HB. constructor.
  - intros i b' Hb'. destruct (nth_error (w_blocks w) i) as [b|] eqn:Hb.
    + destruct (HB i b Hb) as (b2 & Q1 & Q2). assert (b2 = b') by congruence. subst b2. rewrite Q2, EL, (proj1 (ET _)), (proj2 (ET _)). apply (H1 i b Hb).
    + apply nth_error_None in Hb. assert (i < List.length (w_blocks w'))%nat by (apply nth_error_Some; congruence). lia.
  - intros h Hh. rewrite (proj1 (ET _)), (proj2 (ET _)). apply H2. intros i b Hb. destruct (HB i b Hb) as (b' & Q1 & Q2). rewrite <- Q2. apply (Hh i b' Q1).
Qed.

(** Replace local object l by v, with an optional event. *)
Lemma binv_local n w l v w' : binv n w -> hinv zk n w -> (l < n)%nat -> (forall y, w_locals w' y = if Nat.eqb y l then v else w_locals w y) -> w_blocks w' = w_blocks w ->
  forall e, (w_trace w' = w_trace w ++ e) ->
  (e = [] /\ (forall i, acq_on v i = acq_on (w_locals w l) i) \/
   (exists i b, nth_error (w_blocks w) i = Some b /\ e = [EAcquire (b_handle b)] /\ (forall j, acq_on (w_locals w l) j = false) /\ (forall j, acq_on v j = Nat.eqb i j)) \/
   (exists i b, nth_error (w_blocks w) i = Some b /\ e = [ERelease (b_handle b)] /\ (forall j, acq_on (w_locals w l) j = Nat.eqb i j) /\ (forall j, acq_on v j = false))) ->
  binv n w'.
Proof.
  intros [H1 H2] HI Hl EL EB e ET HC.
  assert (HE : forall i, (cnt (fun y => acq_on (w_locals w' y) i) n + (if acq_on (w_locals w l) i then 1 else 0) = cnt (fun y => acq_on (w_locals w y) i) n + (if acq_on v i then 1 else 0))%nat).
  { intros i. rewrite <- (cnt_upd (fun y => acq_on (w_locals w y) i) l (acq_on v i) n Hl). f_equal. apply cnt_ext. intros y _. rewrite EL. destruct (Nat.eqb y l); reflexivity. }
  constructor.
  - intros i b Hb. rewrite EB in Hb. specialize (HE i). specialize (H1 i b Hb). rewrite ET, !filter_app, !app_length.
    destruct HC as [[-> Hc]|[(i0 & b0 & Hb0 & -> & Hc1 & Hc2)|(i0 & b0 & Hb0 & -> & Hc1 & Hc2)]].
    + rewrite Hc in HE. cbn. lia.
    + rewrite Hc1, Hc2 in HE. cbn [filter is_acq is_rel List.length].
      destruct (Nat.eqb_spec i0 i) as [->|E].
      * assert (b0 = b) by congruence. subst b0. rewrite Nat.eqb_refl. cbn [List.length]. lia.
      * destruct (Nat.eqb_spec (b_handle b0) (b_handle b)) as [Eh|]; [exfalso; apply E; apply (hi_inj _ _ _ HI i0 i b0 b Hb0 Hb Eh)|]. cbn [List.length]. lia.
    + rewrite Hc1, Hc2 in HE. cbn [filter is_acq is_rel List.length].
      destruct (Nat.eqb_spec i0 i) as [->|E].
      * assert (b0 = b) by congruence. subst b0. rewrite Nat.eqb_refl. cbn [List.length]. lia.
      * destruct (Nat.eqb_spec (b_handle b0) (b_handle b)) as [Eh|]; [exfalso; apply E; apply (hi_inj _ _ _ HI i0 i b0 b Hb0 Hb Eh)|]. cbn [List.length]. lia.
  - intros h Hh. rewrite EB in Hh. destruct (H2 h Hh) as [X1 X2]. rewrite ET, !filter_app, X1, X2. cbn [app].
    destruct HC as [[-> Hc]|[(i0 & b0 & Hb0 & -> & _)|(i0 & b0 & Hb0 & -> & _)]]; [split; reflexivity| |]; cbn [filter is_acq is_rel];
      destruct (Nat.eqb_spec (b_handle b0) h) as [Eh|]; try (split; reflexivity); exfalso; apply (Hh i0 b0 Hb0 Eh).
Qed.

(** A program that treats local access as intended: acquires only what it does not hold, releases only what it holds, and does not
    copy a HandleLocalData object that holds its data. *)
Definition disciplined (o : hop) (w : world) : Prop :=
  match o with
  | LReacquire l _ => forall d, w_locals w l = Some d -> l_acquired d = false
  | LRelease l => forall d, w_locals w l = Some d -> l_acquired d = true
  | LCopy _ l' => forall d, w_locals w l' = Some d -> l_acquired d = false
  | _ => True
  end.
Fixpoint all_disciplined (os : list hop) (w : world) : Prop :=
  match os with
  | [] => True
  | o :: os => disciplined o w /\ match hstep o w with Ok (w', _) => all_disciplined os w' | _ => True end
  end.

Lemma sp_inc_frame p w w' : sp_inc p w = Ok w' -> w_locals w' = w_locals w /\ w_vars w' = w_vars w /\ w_trace w' = w_trace w /\ List.length (w_blocks w') = List.length (w_blocks w) /\
  (forall i b, nth_error (w_blocks w) i = Some b -> exists b', nth_error (w_blocks w') i = Some b' /\ b_handle b' = b_handle b).
Proof.
  destruct p as [i|]; cbn [sp_inc]; intros E; [|inversion E; subst; repeat split; eauto].
  destruct (nth_error (w_blocks w) i) as [b|] eqn:Hb; [|discriminate]. inversion E; subst w'. cbn. repeat split; [apply upd_length|].
  intros j b' Hj. rewrite nth_error_upd, Hj. destruct (Nat.eqb_spec j i) as [->|]; [|eauto]. eexists. split; [reflexivity|]. cbn. congruence.
Qed.
Lemma sp_dec_frame p w w' : sp_dec p w = Ok w' -> w_locals w' = w_locals w /\ List.length (w_blocks w') = List.length (w_blocks w) /\
  (forall h, filter (is_acq h) (w_trace w') = filter (is_acq h) (w_trace w) /\ filter (is_rel h) (w_trace w') = filter (is_rel h) (w_trace w)) /\
  (forall i b, nth_error (w_blocks w) i = Some b -> exists b', nth_error (w_blocks w') i = Some b' /\ b_handle b' = b_handle b).
Proof.
  destruct p as [i|]; cbn [sp_dec]; intros E; [|inversion E; subst; repeat split; eauto].
  destruct (nth_error (w_blocks w) i) as [b|] eqn:Hb; [|discriminate]. destruct (b_count b) as [|c]; [discriminate|]. inversion E; subst w'.
  assert (X : forall j b', nth_error (w_blocks w) j = Some b' -> exists b'', nth_error (upd (w_blocks w) i (set_count b c)) j = Some b'' /\ b_handle b'' = b_handle b').
  { intros j b' Hj. rewrite nth_error_upd, Hj. destruct (Nat.eqb_spec j i) as [->|]; [|eauto]. eexists. split; [reflexivity|]. cbn. congruence. }
  destruct c; cbn; (split; [reflexivity|split; [apply upd_length|split; [|exact X]]]); intros h; [|split; reflexivity].
  rewrite !filter_app. cbn. rewrite !app_nil_r. split; reflexivity.
Qed.

Lemma hstep_binv o w n w' t : hinv zk n w -> binv n w -> (hop_ids o < n)%nat -> disciplined o w -> hstep o w = Ok (w', t) -> binv n w'.
Proof.
  intros H B Hn Hd E. pose proof (hstep_ready _ _ _ _ E) as Hr. revert E.
  assert (SV : forall x v w1, binv n w1 -> binv n (set_var x v w1)) by (intros x v w1 [B1 B2]; constructor; [exact B1|exact B2]).
  assert (INC : forall p w1, sp_inc p w = Ok w1 -> binv n w1).
  { intros p w1 E1. destruct (sp_inc_frame _ _ _ E1) as (Q1 & Q2 & Q3 & Q4 & Q5). apply (binv_same n w); try assumption. intros h. rewrite Q3. split; reflexivity. }
  assert (DEC : forall p w1 w2, binv n w1 -> sp_dec p w1 = Ok w2 -> binv n w2).
  { intros p w1 w2 B1 E1. destruct (sp_dec_frame _ _ _ E1) as (Q1 & Q2 & Q3 & Q4). apply (binv_same n w1); assumption. }
  destruct o as [x|x size m|x y|x y|x|x|l x st|l st|l|l l'|l]; cbn [hready hop_ids disciplined] in Hr, Hn, Hd; cbn [hstep]; intros E.
  - unfold fresh_var in E. rewrite Hr, bind_Ok in E. inversion E; subst. apply SV, B.
  - unfold fresh_var in E. rewrite Hr, bind_Ok in E. destruct (size =? 0); [inversion E; subst; exact B|]. cbv zeta in E.
    assert (B1 : binv n (emit (ERegister (w_next w)) (mkWorld (S (w_next w)) (w_blocks w) (w_vars w) (w_locals w) (w_trace w)))).
    { apply (binv_same n w); try reflexivity; try assumption; [|eauto]. intros h. cbn. rewrite !filter_app. cbn. rewrite !app_nil_r. split; reflexivity. }
    destruct (deleter_of m) as [p|]; [|inversion E; subst; exact B1]. inversion E; subst w'. apply SV. destruct B1 as [C1 C2].
    cbn [w_blocks w_locals w_trace emit] in C1, C2. constructor; cbn [w_blocks w_locals w_trace emit set_blocks].
    + intros i b Hb. destruct (Nat.lt_ge_cases i (List.length (w_blocks w))) as [Hi|Hi].
      * rewrite nth_error_app1 in Hb by assumption. apply C1, Hb.
      * rewrite nth_error_app2 in Hb by assumption. destruct (i - List.length (w_blocks w))%nat as [|j] eqn:Ei; [|destruct j; discriminate Hb].
        inversion Hb; subst b. cbn [b_handle]. destruct (C2 (w_next w)) as [X1 X2]; [intros j b Hj; pose proof (hi_lt _ _ _ H j b Hj); lia|].
        rewrite X1, X2, cnt_zero; [reflexivity|]. intros l _. unfold acq_on. destruct (w_locals w l) as [d|] eqn:El; [|reflexivity].
        destruct (points (Some (l_handle d)) i) eqn:Ep; [|apply andb_false_r]. exfalso.
        pose proof (hi_valid _ _ _ H l i) as Hv. rewrite El in Hv. cbn [lptr option_map] in Hv. specialize (Hv (or_intror Ep)). lia.
    + intros h Hh. apply C2. intros i b Hb. apply (Hh i b). rewrite nth_error_app1; [assumption|]. apply nth_error_Some. congruence.
  - destruct Hr as [Hx Hy]. unfold fresh_var, var in E. rewrite Hx, bind_Ok in E. destruct (w_vars w y) as [p|]; [|contradiction]. rewrite bind_Ok in E.
    destruct (sp_inc p w) as [w1| |] eqn:E1; try discriminate. rewrite bind_Ok in E. inversion E; subst. apply SV. eapply INC; eassumption.
  - unfold var in E. destruct (w_vars w x) as [q|]; [|discriminate]. rewrite bind_Ok in E. destruct (w_vars w y) as [p|]; [|discriminate]. rewrite bind_Ok in E.
    destruct (sp_inc p w) as [w1| |] eqn:E1; try discriminate. rewrite bind_Ok in E. destruct (sp_dec q _) as [w2| |] eqn:E2; try discriminate. rewrite bind_Ok in E.
    inversion E; subst. eapply DEC; [|exact E2]. apply SV. eapply INC; eassumption.
  - unfold var in E. destruct (w_vars w x) as [q|]; [|discriminate]. rewrite bind_Ok in E. destruct (sp_dec q _) as [w2| |] eqn:E2; try discriminate. rewrite bind_Ok in E.
    inversion E; subst. eapply DEC; [|exact E2]. apply SV, B.
  - unfold var in E. destruct (w_vars w x) as [q|]; [|discriminate]. rewrite bind_Ok in E. destruct (sp_dec q _) as [w2| |] eqn:E2; try discriminate. rewrite bind_Ok in E.
    inversion E; subst. eapply DEC; [|exact E2]. apply SV, B.
  - destruct Hr as [Hl (i0 & Ex)]. unfold fresh_local, var in E. rewrite Hl, bind_Ok, Ex, bind_Ok in E.
    destruct (sp_inc (Some i0) w) as [w1| |] eqn:E1; try discriminate. rewrite bind_Ok in E.
    destruct (sp_inc_inv (Some i0) w zk n H) as (w1' & E1' & H1 & V1 & L1 & T1 & N1 & Lb & B').
    { intros i Hi. apply (owner_block zk n w x i H). left. rewrite Ex. assumption. }
    assert (w1' = w1) by congruence. subst w1'. pose proof (INC _ _ E1) as B1. unfold raw in E.
    destruct (nth_error (w_blocks w1) i0) as [b|] eqn:Hb; [|discriminate]. rewrite bind_Ok in E.
    destruct (negb (st =? 0)).
    + destruct (sp_dec (Some i0) w1) as [w2| |] eqn:E2; try discriminate. rewrite bind_Ok in E. inversion E; subst. eapply DEC; [exact B1|exact E2].
    + inversion E; subst w' t. 
      assert (H1' : hinv zk n (set_local l (Some (mkLocal (Some i0) false)) w1)).
      { eapply set_local_inv; [exact H1|lia| |].
        * intros i Hi. rewrite Lb. apply (hi_valid _ _ _ H x i). left. rewrite Ex. assumption.
        * intros i. rewrite L1, Hl. unfold one, zk. cbn [lptr option_map l_handle points]. lia. }
      apply (binv_local n (set_local l (Some (mkLocal (Some i0) false)) w1) l (Some (mkLocal (Some i0) true)) _) with (e := [EAcquire (b_handle b)]); [|exact H1'|lia| | | |].
      * destruct B1 as [C1 C2]. constructor; cbn [w_locals w_blocks w_trace set_local]; [|exact C2]. intros i b1 Hb1. rewrite (C1 i b1 Hb1). f_equal. apply cnt_ext.
        intros y _. destruct (Nat.eqb_spec y l) as [->|]; [|reflexivity]. rewrite L1, Hl. reflexivity.
      * cbn. intros y. destruct (Nat.eqb y l); reflexivity.
      * reflexivity.
      * reflexivity.
      * right. left. exists i0, b. cbn [w_blocks w_locals set_local]. split; [assumption|]. split; [reflexivity|]. rewrite Nat.eqb_refl. split; intros j; reflexivity.
  - destruct Hr as (i0 & a & El). unfold loc in E. rewrite El, bind_Ok in E. cbn [l_handle] in E. unfold raw in E.
    destruct (nth_error (w_blocks w) i0) as [b|] eqn:Hb; [|discriminate]. rewrite bind_Ok in E. specialize (Hd _ El). cbn in Hd. subst a.
    destruct (negb (st =? 0)); inversion E; subst; [exact B|].
    eapply (binv_local n w l (Some (mkLocal (Some i0) true)) _ B H Hn) with (e := [EAcquire (b_handle b)]); [reflexivity|reflexivity|reflexivity|].
    right. left. exists i0, b. rewrite El. split; [assumption|]. split; [reflexivity|]. split; intros j; reflexivity.
  - destruct Hr as (i0 & a & El). unfold loc in E. rewrite El, bind_Ok in E. cbn [l_handle] in E. unfold raw in E.
    destruct (nth_error (w_blocks w) i0) as [b|] eqn:Hb; [|discriminate]. rewrite bind_Ok in E. specialize (Hd _ El). cbn in Hd. subst a. inversion E; subst.
    eapply (binv_local n w l (Some (mkLocal (Some i0) false)) _ B H Hn) with (e := [ERelease (b_handle b)]); [reflexivity|reflexivity|reflexivity|].
    right. right. exists i0, b. rewrite El. split; [assumption|]. split; [reflexivity|]. split; intros j; reflexivity.
  - destruct Hr as [Hl Hl']. unfold fresh_local, loc in E. rewrite Hl, bind_Ok in E. destruct (w_locals w l') as [d|] eqn:Ed; [|contradiction]. rewrite bind_Ok in E.
    destruct (sp_inc (l_handle d) w) as [w1| |] eqn:E1; try discriminate. rewrite bind_Ok in E. inversion E; subst.
    specialize (Hd d eq_refl). pose proof (INC _ _ E1) as [C1 C2]. destruct (sp_inc_frame _ _ _ E1) as (Q1 & _).
    constructor; cbn [w_locals w_blocks w_trace set_local]; [|exact C2]. intros i b1 Hb1. rewrite (C1 i b1 Hb1). f_equal. apply cnt_ext.
    intros y _. destruct (Nat.eqb_spec y l) as [->|]; [|reflexivity]. rewrite Q1, Hl. cbn [acq_on]. rewrite Hd. reflexivity.
  - destruct Hr as [Hl Ha]. unfold loc in E. destruct (w_locals w l) as [d|] eqn:Ed; [|contradiction]. rewrite bind_Ok in E.
    destruct (if l_acquired d then h <- raw w (l_handle d) ;; Ok (emit (ERelease h) w) else Ok w) as [w1| |] eqn:E1; try discriminate. rewrite bind_Ok in E.
    destruct (sp_dec (l_handle d) (set_local l None w1)) as [w2| |] eqn:E2; try discriminate. rewrite bind_Ok in E. inversion E; subst. eapply DEC; [|exact E2].
    destruct d as [q a]. cbn [l_acquired l_handle] in *. destruct a.
    + destruct q as [i0|]; [|discriminate]. cbn [raw] in E1. destruct (nth_error (w_blocks w) i0) as [b|] eqn:Hb; [|discriminate]. rewrite bind_Ok in E1. inversion E1; subst w1.
      eapply (binv_local n w l None _ B H Hn) with (e := [ERelease (b_handle b)]); [reflexivity|reflexivity|reflexivity|].
      right. right. exists i0, b. rewrite Ed. split; [assumption|]. split; [reflexivity|]. split; intros j; reflexivity.
    + inversion E1; subst w1. eapply (binv_local n w l None _ B H Hn) with (e := []); [reflexivity|reflexivity|cbn; rewrite app_nil_r; reflexivity|].
      left. split; [reflexivity|]. intros i. rewrite Ed. reflexivity.
Qed.

Lemma binv_more n m w : (n <= m)%nat -> hinv zk n w -> binv n w -> binv m w.
Proof.
  intros Hn H [B1 B2]. constructor; [|exact B2]. intros i b Hb. rewrite (B1 i b Hb). f_equal. symmetry. apply cnt_more; [assumption|].
  intros y Hy. rewrite (proj2 (hi_dead _ _ _ H y Hy)). reflexivity.
Qed.
Lemma hrun_binv os : forall w w' n, hinv zk n w -> binv n w -> all_disciplined os w -> hrun os w = Ok w' -> exists n', hinv zk n' w' /\ binv n' w'.
Proof.
  induction os as [|o os IH]; intros w w' n H B Hd E; cbn [hrun] in E.
  - inversion E; subst. eauto.
  - destruct Hd as [Hd Hds]. destruct (hstep o w) as [[w1 t]| |] eqn:E1; try discriminate. rewrite bind_Ok in E.
    pose proof (hstep_ready _ _ _ _ E1) as Hr. assert (H' : hinv zk (n + S (hop_ids o)) w) by (eapply hinv_more; [|exact H]; lia).
    assert (B' : binv (n + S (hop_ids o)) w) by (eapply binv_more; [|exact H|exact B]; lia).
    destruct (hstep_inv o w _ H' Hr ltac:(lia)) as (w1' & t' & E1' & H1 & _). assert (w1' = w1) by congruence. subst.
    apply (IH w1 w' _ H1); [|exact Hds|exact E]. apply (hstep_binv o w (n + S (hop_ids o)) w1 t' H' B' ltac:(lia) Hd). assumption.
Qed.

(** In a disciplined history every acquisition of a raw handle is matched by one release, except those of the live
    HandleLocalData objects that still hold it; in particular all of them once these objects are gone. *)
Theorem C38_released_once (os : list hop) w : all_disciplined os world0 -> hrun os world0 = Ok w ->
  exists n, (forall l, (n <= l)%nat -> w_locals w l = None) /\ forall h,
    List.length (filter (is_acq h) (w_trace w)) = (List.length (filter (is_rel h) (w_trace w)) +
      cnt (fun l => match w_locals w l with Some d => l_acquired d && (match raw w (l_handle d) with Ok h' => Nat.eqb h' h | _ => false end) | None => false end) n)%nat.
Proof.
  intros Hd E. assert (B0 : binv 0 world0) by (constructor; [intros [|i] b Hb; discriminate Hb|intros; split; reflexivity]).
  destruct (hrun_binv os _ _ _ hinv0 B0 Hd E) as (n & H & [B1 B2]). exists n. split; [intros l Hl; apply (hi_dead _ _ _ H l Hl)|].
  intros h.
  assert (Hraw : forall i b q, nth_error (w_blocks w) i = Some b -> (match raw w q with Ok h' => Nat.eqb h' (b_handle b) | _ => false end) = points (Some q) i).
  { intros i b [j|] Hb; cbn [raw points]; [|reflexivity]. destruct (nth_error (w_blocks w) j) as [b'|] eqn:Ej.
    - destruct (Nat.eqb_spec (b_handle b') (b_handle b)) as [Eh|Eh]; symmetry; [apply Nat.eqb_eq; eapply (hi_inj _ _ _ H); eassumption|].
      apply Nat.eqb_neq. intros ->. congruence.
    - symmetry. apply Nat.eqb_neq. intros ->. congruence. }
  assert (Hfind : (exists i b, nth_error (w_blocks w) i = Some b /\ b_handle b = h) \/ (forall i b, nth_error (w_blocks w) i = Some b -> b_handle b <> h)).
  { clear. induction (w_blocks w) as [|b l IH]; [right; intros [|i] b Hb; discriminate Hb|].
    destruct (Nat.eq_dec (b_handle b) h) as [Eh|Eh]; [left; exists O, b; auto|]. destruct IH as [(i & b' & Q1 & Q2)|IH]; [left; exists (S i), b'; auto|].
    right. intros [|i] b' Hb'; [cbn in Hb'; congruence|]. eapply IH; exact Hb'. }
  destruct Hfind as [(i & b & Hb & <-)|Hno].
  - rewrite (B1 i b Hb). f_equal. apply cnt_ext. intros l _. unfold acq_on. destruct (w_locals w l) as [d|]; [|reflexivity]. rewrite (Hraw i b _ Hb). reflexivity.
  - destruct (B2 h Hno) as [-> ->]. cbn [List.length]. symmetry. rewrite Nat.add_0_l. apply cnt_zero. intros l _. destruct (w_locals w l) as [d|]; [|reflexivity].
    apply andb_false_intro2. destruct (l_handle d) as [j|]; cbn [raw]; [|reflexivity]. destruct (nth_error (w_blocks w) j) as [b|] eqn:Ej; [|reflexivity].
    apply Nat.eqb_neq, (Hno j b Ej).
Qed.

(** Without that discipline the claim fails: an explicit second release(), a second acquire(), or a copy of the object. *)
Theorem C38_double_release_refuted :
  (w <- hrun [HVariable 0 8 MRW; LAcquire 0 0 0; LRelease 0; LRelease 0; LDestroy 0; HDestroy 0] world0 ;; Ok (w_trace w)) =
    Ok [ERegister 0; EAcquire 0; ERelease 0; ERelease 0; EUnregister Unregister 0].
Proof. vm_compute. reflexivity. Qed.
Theorem C38_double_acquire_refuted :
  (w <- hrun [HVariable 0 8 MRW; LAcquire 0 0 0; LReacquire 0 0; LDestroy 0; HDestroy 0] world0 ;; Ok (w_trace w)) =
    Ok [ERegister 0; EAcquire 0; EAcquire 0; ERelease 0; EUnregister Unregister 0].
Proof. vm_compute. reflexivity. Qed.
Theorem C38_copied_access_refuted :
  (w <- hrun [HVariable 0 8 MRW; LAcquire 0 0 0; LCopy 1 0; LDestroy 1; LDestroy 0; HDestroy 0] world0 ;; Ok (w_trace w)) =
    Ok [ERegister 0; EAcquire 0; ERelease 0; ERelease 0; EUnregister Unregister 0].
Proof. vm_compute. reflexivity. Qed.

(** A history meeting the hypotheses: copies, assignment over the last owner of another handle, local access outliving the variables. *)
Example C38_case :
  let os := [HVariable 0 8 MR; HVariable 1 8 MSCRATCH; HCopy 2 0; HAssign 1 0; LAcquire 0 1 0; HUnregister 0; HDestroy 1; HDestroy 2; LRelease 0; LDestroy 0] in
  all_disciplined os world0 /\ (w <- hrun os world0 ;; Ok (w_trace w)) =
    Ok [ERegister 0; ERegister 1; EUnregister Unregister_submit 1; EAcquire 0; ERelease 0; EUnregister Unregister_no_coherency 0].
Proof.
  intros os. split; [|vm_compute; reflexivity]. vm_compute. repeat (split; [exact I|]). split; [|repeat (split; [exact I|]); exact I].
  intros d Hd. inversion Hd. reflexivity.
Qed.

(** ** C39 *)
(** Some function of the list is not nullptr. *)
Definition has (l : list (option Z)) : bool := existsb (fun f => match f with Some _ => true | None => false end) l.

Lemma has_firstn_S l i f : nth_error l i = Some f -> has (firstn (S i) l) = has (firstn i l) || (match f with Some _ => true | None => false end).
Proof.
  revert i. induction l as [|a l IH]; intros [|i] H; cbn [nth_error] in H; try discriminate.
  - inversion H; subst. cbn. rewrite orb_false_r. reflexivity.
  - rewrite (firstn_cons (S i)), (firstn_cons i). unfold has in *. cbn [existsb]. rewrite (IH i H), orb_assoc. reflexivity.
Qed.
Lemma has_upd l i f : (i < List.length l)%nat -> has (upd l i (Some f)) = true.
Proof. revert i. induction l as [|a l IH]; intros [|i] H; cbn [List.length] in H; try lia; cbn [upd]; unfold has; cbn [existsb]; [reflexivity|]. unfold has in IH. rewrite IH by lia. apply orb_true_r. Qed.

Record cinv (c : codelet) : Prop := {
  ci_cpu : zlen (c_cpu c) = STARPU_MAXIMPLEMENTATIONS;
  ci_cuda : zlen (c_cuda c) = STARPU_MAXIMPLEMENTATIONS;
  ci_sub : Z.land (c_where c) (c_default c) = c_where c;
  ci_def : exists b1 b2, c_default c = Z.lor (if b1 : bool then STARPU_CPU else 0) (if b2 : bool then STARPU_CUDA else 0) /\
     (b1 = true -> has (c_cpu c) = true) /\ (b2 = true -> has (c_cuda c) = true)
}.
Lemma cinv0 : cinv codelet0.
Proof. constructor; try reflexivity. exists false, false. split; [reflexivity|]. split; discriminate. Qed.

Lemma init_cpu cpu c : zlen cpu <= STARPU_MAXIMPLEMENTATIONS -> cinv c ->
  exists c', for_ 0 (zlen cpu) (fun i c => f <- rd cpu i ;;
      match f with
      | Some _ => l <- wr (c_cpu c) i f ;; Ok (mkCodelet l (c_cuda c) STARPU_CPU STARPU_CPU)
      | None => Ok c
      end) c = Ok c' /\ cinv c' /\
    if has cpu then c_where c' = STARPU_CPU /\ c_default c' = STARPU_CPU else c' = c.
Proof.
  intros Hl Hc.
  destruct (for_inv (fun i c' => cinv c' /\ if has (firstn (Z.to_nat i) cpu) then c_where c' = STARPU_CPU /\ c_default c' = STARPU_CPU else c' = c) 0 (zlen cpu)
    (fun i c => f <- rd cpu i ;;
      match f with
      | Some _ => l <- wr (c_cpu c) i f ;; Ok (mkCodelet l (c_cuda c) STARPU_CPU STARPU_CPU)
      | None => Ok c
      end) c) as (c' & E & H).
  - apply zlen_nonneg.
  - split; [assumption|reflexivity].
  - intros i c1 Hi [H1 H2]. replace (Z.to_nat (i + 1)) with (S (Z.to_nat i)) by lia. unfold rd. destruct (Z.ltb_spec i 0); [lia|].
    destruct (nth_error cpu (Z.to_nat i)) as [f|] eqn:Ef; [|apply nth_error_None in Ef; unfold zlen in Hi; lia]. rewrite bind_Ok.
    rewrite (has_firstn_S _ _ _ Ef). destruct f as [f|].
    + destruct H1 as [A1 A2 A3 A4]. unfold wr. replace ((0 <=? i) && (i <? zlen (c_cpu c1))) with true
        by (symmetry; apply andb_true_intro; split; [apply Z.leb_le|apply Z.ltb_lt]; lia).
      rewrite bind_Ok. eexists. split; [reflexivity|]. rewrite orb_true_r. split; [|split; reflexivity]. constructor; cbn [c_cpu c_cuda c_where c_default].
      * unfold zlen. rewrite upd_length. exact A1.
      * exact A2.
      * reflexivity.
      * exists true, false. split; [reflexivity|]. split; [|discriminate]. intros _. apply has_upd. unfold zlen, STARPU_MAXIMPLEMENTATIONS in *. lia.
    + eexists. split; [reflexivity|]. rewrite orb_false_r. split; assumption.
  - exists c'. split; [exact E|]. unfold zlen in H. rewrite Nat2Z.id, firstn_all in H. exact H.
Qed.
Lemma lor_idem a b : Z.lor (Z.lor a b) b = Z.lor a b.
Proof. rewrite <- Z.lor_assoc, Z.lor_diag. reflexivity. Qed.
Lemma init_cuda cuda c : zlen cuda <= STARPU_MAXIMPLEMENTATIONS -> cinv c ->
  exists c', for_ 0 (zlen cuda) (fun i c => f <- rd cuda i ;;
        match f with
        | Some _ => l <- wr (c_cuda c) i f ;;
                    let d := Z.lor (c_default c) STARPU_CUDA in Ok (mkCodelet (c_cpu c) l d d)
        | None => Ok c
        end) c = Ok c' /\ cinv c' /\
    if has cuda then c_where c' = c_default c' /\ c_default c' = Z.lor (c_default c) STARPU_CUDA else c' = c.
Proof.
  intros Hl Hc.
  destruct (for_inv (fun i c' => cinv c' /\ if has (firstn (Z.to_nat i) cuda) then c_where c' = c_default c' /\ c_default c' = Z.lor (c_default c) STARPU_CUDA else c' = c) 0 (zlen cuda)
    (fun i c => f <- rd cuda i ;;
        match f with
        | Some _ => l <- wr (c_cuda c) i f ;;
                    let d := Z.lor (c_default c) STARPU_CUDA in Ok (mkCodelet (c_cpu c) l d d)
        | None => Ok c
        end) c) as (c' & E & H).
  - apply zlen_nonneg.
  - split; [assumption|reflexivity].
  - intros i c1 Hi [H1 H2]. replace (Z.to_nat (i + 1)) with (S (Z.to_nat i)) by lia. unfold rd. destruct (Z.ltb_spec i 0); [lia|].
    destruct (nth_error cuda (Z.to_nat i)) as [f|] eqn:Ef; [|apply nth_error_None in Ef; unfold zlen in Hi; lia]. rewrite bind_Ok.
    rewrite (has_firstn_S _ _ _ Ef). destruct f as [f|].
    + destruct H1 as [A1 A2 A3 (b1 & b2 & A4 & A5 & A6)]. unfold wr. replace ((0 <=? i) && (i <? zlen (c_cuda c1))) with true
        by (symmetry; apply andb_true_intro; split; [apply Z.leb_le|apply Z.ltb_lt]; lia).
      rewrite bind_Ok. cbv zeta. eexists. split; [reflexivity|]. rewrite orb_true_r. split; [|split; [reflexivity|]].
      2:{ cbn [c_default]. destruct (has (firstn (Z.to_nat i) cuda)); [destruct H2 as [_ H2]; rewrite H2; apply lor_idem|subst c1; reflexivity]. }
      constructor; cbn [c_cpu c_cuda c_where c_default].
      * exact A1.
      * unfold zlen. rewrite upd_length. exact A2.
      * apply Z.land_diag.
      * exists b1, true. rewrite A4. split; [destruct b1, b2; reflexivity|]. split; [assumption|].
        intros _. apply has_upd. unfold zlen, STARPU_MAXIMPLEMENTATIONS in *. lia.
    + eexists. split; [reflexivity|]. rewrite orb_false_r. split; assumption.
  - exists c'. split; [exact E|]. unfold zlen in H. rewrite Nat2Z.id, firstn_all in H. exact H.
Qed.

Lemma c_init_inv cpu cuda c : cinv c -> exists c' t, c_init cpu cuda c = Ok (c', t) /\ cinv c' /\
  (t = false -> c_default c' = Z.lor (if has cpu then STARPU_CPU else c_default c) (if has cuda then STARPU_CUDA else 0) /\
    (has cpu || has cuda = true -> c_where c' = c_default c')).
Proof.
  intros Hc. unfold c_init. destruct (Z.ltb_spec STARPU_MAXIMPLEMENTATIONS (zlen cpu)) as [H|H]; [exists c, true; split; [reflexivity|split; [assumption|discriminate]]|].
  destruct (init_cpu cpu c H Hc) as (c1 & E1 & H1 & D1). rewrite E1, bind_Ok; cbv beta.
  destruct (Z.ltb_spec STARPU_MAXIMPLEMENTATIONS (zlen cuda)) as [H'|H']; [exists c1, true; split; [reflexivity|split; [assumption|discriminate]]|].
  destruct (init_cuda cuda c1 H' H1) as (c2 & E2 & H2 & D2). cbv zeta in E2 |- *. rewrite E2, bind_Ok. exists c2, false. split; [reflexivity|]. split; [assumption|]. intros _.
  destruct (has cpu).
  - destruct D1 as [D11 D12]. destruct (has cuda).
    + destruct D2 as [D21 D22]. rewrite D12 in D22. split; [exact D22|intros _; exact D21].
    + subst c2. rewrite D12, D11. split; [reflexivity|reflexivity].
  - subst c1. destruct (has cuda).
    + destruct D2 as [D21 D22]. split; [exact D22|intros _; exact D21].
    + subst c2. split; [symmetry; apply Z.lor_0_r|discriminate].
Qed.
Lemma cstep_inv o c : cinv c -> exists c', cstep o c = Ok c' /\ cinv c'.
Proof.
  intros Hc. destruct o as [cpu cuda|m|]; cbn [cstep].
  - destruct (c_init_inv cpu cuda c Hc) as (c' & t & E & H & _). exists c'. rewrite E, bind_Ok. split; [reflexivity|assumption].
  - eexists. split; [reflexivity|]. unfold restrict_where. destruct (Z.eqb_spec (Z.land (c_default c) m) m) as [E|]; [|assumption].
    destruct Hc as [A1 A2 A3 A4]. constructor; cbn [c_cpu c_cuda c_where c_default]; try assumption. rewrite Z.land_comm. exact E.
  - eexists. split; [reflexivity|]. destruct Hc as [A1 A2 A3 A4]. constructor; cbn [restore_where c_cpu c_cuda c_where c_default]; try assumption. apply Z.land_diag.
Qed.

(** Whatever the history of calls on a codelet (init included), it never fails, the mask names only kinds of workers for which the codelet has
    an implementation, and no other bit is set. *)
Theorem C39_mask (os : list cop) : exists c, crun os codelet0 = Ok c /\
  (Z.testbit (c_where c) 1 = true -> exists f, In (Some f) (c_cpu c)) /\
  (Z.testbit (c_where c) 3 = true -> exists f, In (Some f) (c_cuda c)) /\
  (forall b, b <> 1 -> b <> 3 -> Z.testbit (c_where c) b = false) /\
  (forall b, Z.testbit (c_where c) b = true -> Z.testbit (c_default c) b = true).
Proof.
  assert (G : exists c, crun os codelet0 = Ok c /\ cinv c).
  { assert (X : forall c, cinv c -> exists c', crun os c = Ok c' /\ cinv c'); [|apply X, cinv0].
    induction os as [|o os IH]; intros c Hc; cbn [crun]; [eauto|]. destruct (cstep_inv o c Hc) as (c1 & E1 & H1). rewrite E1, bind_Ok. apply IH, H1. }
  destruct G as (c & E & [A1 A2 A3 (b1 & b2 & A4 & A5 & A6)]). exists c. split; [assumption|].
  assert (Hsub : forall b, Z.testbit (c_where c) b = true -> Z.testbit (c_default c) b = true).
  { intros b Hb. rewrite <- A3, Z.land_spec in Hb. apply andb_true_iff in Hb. tauto. }
  assert (Hex : forall l, has l = true -> exists f, In (Some f) l).
  { intros l Hl. unfold has in Hl. apply existsb_exists in Hl. destruct Hl as ([f|] & Hin & Hf); [eauto|discriminate]. }
  split; [|split; [|split; [|assumption]]].
  - intros Hb. apply Hex, A5. specialize (Hsub _ Hb). rewrite A4 in Hsub. destruct b1; [reflexivity|destruct b2; discriminate].
  - intros Hb. apply Hex, A6. specialize (Hsub _ Hb). rewrite A4 in Hsub. destruct b2; [reflexivity|destruct b1; discriminate].
  - intros b H1 H3. destruct (Z.testbit (c_where c) b) eqn:Eb; [|reflexivity]. specialize (Hsub _ Eb). rewrite A4, Z.lor_spec in Hsub.
    destruct (Z.ltb_spec b 0); [rewrite Z.testbit_neg_r in Eb by assumption; discriminate|].
    assert (T2 : Z.testbit (if b1 then STARPU_CPU else 0) b = false) by (destruct b1; [change STARPU_CPU with (2 ^ 1); rewrite Z.pow2_bits_eqb by lia; apply Z.eqb_neq; lia|apply Z.testbit_0_l]).
    assert (T8 : Z.testbit (if b2 then STARPU_CUDA else 0) b = false) by (destruct b2; [change STARPU_CUDA with (2 ^ 3); rewrite Z.pow2_bits_eqb by lia; apply Z.eqb_neq; lia|apply Z.testbit_0_l]).
    rewrite T2, T8 in Hsub. discriminate.
Qed.

(** A codelet initialised with implementations cpu and cuda, then any sequence of restrict_where and restore_where. *)
Theorem C39_restrict_restore (cpu cuda : list (option Z)) (os : list cop) :
  zlen cpu <= STARPU_MAXIMPLEMENTATIONS -> zlen cuda <= STARPU_MAXIMPLEMENTATIONS ->
  Forall (fun o => match o with CInit _ _ => False | _ => True end) os ->
  let supported := Z.lor (if has cpu then STARPU_CPU else 0) (if has cuda then STARPU_CUDA else 0) in
  exists c, crun (CInit cpu cuda :: os) codelet0 = Ok c /\
    (* a request for something that is not supported changes nothing, another one is obeyed *)
    (forall m, ~ (forall b, Z.testbit m b = true -> Z.testbit supported b = true) -> restrict_where m c = c) /\
    (forall m, (forall b, Z.testbit m b = true -> Z.testbit supported b = true) -> c_where (restrict_where m c) = m) /\
    (* restore_where returns to the implementations given *)
    c_where (restore_where c) = supported /\
    (* the mask never becomes empty unless an empty mask was asked for *)
    (supported <> 0 -> Forall (fun o => o <> CRestrict 0) os -> c_where c <> 0).
Proof.
  intros H1 H2 HF supported. cbn [crun cstep].
  destruct (c_init_inv cpu cuda codelet0 cinv0) as (c0 & t & E & H & HD).
  assert (Ht : t = false).
  { unfold c_init in E. destruct (Z.ltb_spec STARPU_MAXIMPLEMENTATIONS (zlen cpu)); [lia|].
    destruct (init_cpu cpu codelet0 H1 cinv0) as (c1 & E1 & H1' & _). rewrite E1, bind_Ok in E; cbv beta in E. destruct (Z.ltb_spec STARPU_MAXIMPLEMENTATIONS (zlen cuda)); [lia|].
    destruct (init_cuda cuda c1 H2 H1') as (c2 & E2 & _). cbv zeta in E, E2. rewrite E2, bind_Ok in E. congruence. }
  destruct (HD Ht) as [HD1 HD2]. replace (c_default codelet0) with 0 in HD1 by reflexivity. fold supported in HD1. rewrite E, !bind_Ok.
  assert (G : forall c, c_default c = supported -> (supported <> 0 -> c_where c <> 0) -> exists c', crun os c = Ok c' /\ c_default c' = supported /\
     (supported <> 0 -> Forall (fun o => o <> CRestrict 0) os -> c_where c' <> 0)).
  { clear - HF. induction HF as [|o os Ho HF IH]; intros c Hd Hw; cbn [crun].
    - exists c. split; [reflexivity|]. split; [assumption|]. intros Hs _. apply Hw, Hs.
    - destruct o as [|m|]; [destruct Ho| |]; cbn [cstep]; rewrite bind_Ok.
      + destruct (Z.eq_dec m 0) as [->|Hm].
        * destruct (IH (mkCodelet (c_cpu c) (c_cuda c) supported supported)) as (_ & _ & _ & _); [reflexivity|auto|].
          assert (Hx : exists c', crun os (restrict_where 0 c) = Ok c' /\ c_default c' = supported).
          { assert (Hd' : c_default (restrict_where 0 c) = supported) by (unfold restrict_where; destruct (_ =? _); assumption).
            clear - HF Hd'. revert Hd'. generalize (restrict_where 0 c) as c1. induction HF as [|o os Ho HF IH]; intros c1 Hd'; cbn [crun]; [eauto|].
            destruct o as [|m|]; [destruct Ho| |]; cbn [cstep]; rewrite bind_Ok; apply IH; [|exact Hd'].
            unfold restrict_where. destruct (_ =? _); assumption. }
          destruct Hx as (c' & Q1 & Q2). exists c'. split; [assumption|]. split; [assumption|]. intros _ HF'. inversion HF'; subst. contradiction.
        * destruct (IH (restrict_where m c)) as (c' & Q1 & Q2 & Q3).
          { unfold restrict_where. destruct (_ =? _); assumption. }
          { intros Hs. unfold restrict_where. destruct (_ =? _); [exact Hm|apply Hw, Hs]. }
          exists c'. split; [assumption|]. split; [assumption|]. intros Hs HF'. inversion HF'; subst. apply Q3; assumption.
      + destruct (IH (restore_where c)) as (c' & Q1 & Q2 & Q3); [exact Hd|intros Hs; cbn; congruence|].
        exists c'. split; [assumption|]. split; [assumption|]. intros Hs HF'. inversion HF'; subst. apply Q3; assumption. }
  destruct (G c0 HD1) as (c & Ec & Hd & Hw).
  { intros Hs. destruct (has cpu || has cuda) eqn:Eh; [rewrite (HD2 eq_refl), HD1; assumption|]. exfalso. apply Hs. unfold supported.
    apply orb_false_iff in Eh. destruct Eh as [-> ->]. reflexivity. }
  exists c. split; [assumption|].
  assert (Hsub : forall m, Z.land supported m = m <-> (forall b, Z.testbit m b = true -> Z.testbit supported b = true)).
  { intros m. split.
    - intros Em b Hb. rewrite <- Em, Z.land_spec in Hb. apply andb_true_iff in Hb. tauto.
    - intros Hm. apply Z.bits_inj'. intros b Hb. rewrite Z.land_spec. destruct (Z.testbit m b) eqn:Eb; [rewrite (Hm b Eb); reflexivity|apply andb_false_r]. }
  split; [|split; [|split; [exact Hd|exact Hw]]].
  - intros m Hm. unfold restrict_where. rewrite Hd. destruct (Z.eqb_spec (Z.land supported m) m) as [Em|]; [|reflexivity]. exfalso. apply Hm, Hsub, Em.
  - intros m Hm. unfold restrict_where. rewrite Hd. apply Hsub in Hm. rewrite Hm, Z.eqb_refl. reflexivity.
Qed.

Example C39_case : let os := [CRestrict 8; CRestrict 10; CRestrict 2; CRestrict 4; CRestore; CRestrict 2] in
  Forall (fun o => match o with CInit _ _ => False | _ => True end) os /\
  (c <- crun (CInit [Some 100; None] [Some 200] :: os) codelet0 ;; Ok (c_where c)) = Ok 2 /\
  (c <- crun (CInit [Some 100] [] :: os) codelet0 ;; Ok (c_where c)) = Ok 2.
Proof. split; [repeat constructor|split; reflexivity]. Qed.
