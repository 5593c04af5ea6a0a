(** * Base: outcomes of C++ code, arrays and loops

    Shallow embedding used by every model file.
    - [res A] is the outcome of a C++ function: a value, a thrown exception, or
      undefined behaviour (out-of-bounds access, division by zero, ...).
    - a C++ array/std::vector is a [list]; [rd]/[wr] are its bounds-checked
      accesses (an access outside the array is [UB]);
    - [for_ lo hi body s] is [for(Index i = lo; i < hi; ++i)], [for_down hi lo]
      is [for(Index i = hi; i >= lo; --i)]; [s] is the tuple of variables
      modified by the loop. *)

From Coq Require Export ZArith List Lia String Bool.
From Coq Require FinFun.
Export ListNotations.
Open Scope Z_scope.

#[global] Arguments Z.mul : simpl never.
#[global] Arguments Z.add : simpl never.
#[global] Arguments Z.sub : simpl never.
#[global] Arguments Z.opp : simpl never.
#[global] Arguments Z.div : simpl never.
#[global] Arguments Z.modulo : simpl never.
#[global] Arguments Z.quot : simpl never.
#[global] Arguments Z.rem : simpl never.
#[global] Arguments Z.of_nat : simpl never.
#[global] Arguments Z.to_nat : simpl never.
#[global] Arguments Z.pow : simpl never.

Inductive res (A : Type) : Type :=
| Ok (a : A)
| Throw (msg : string)
| UB.
Arguments Ok {A} a.
Arguments Throw {A} msg.
Arguments UB {A}.

Definition bind {A B} (x : res A) (f : A -> res B) : res B :=
  match x with
  | Ok a => f a
  | Throw m => Throw m
  | UB => UB
  end.

Notation "x <- e ;; k" := (bind e (fun x => k))
  (at level 60, e at level 59, right associativity, only parsing).
Notation "' p <- e ;; k" := (bind e (fun p => k))
  (at level 60, p pattern, e at level 59, right associativity, only parsing).

(** [if(c) throw std::runtime_error(msg); k] *)
Definition throw_if {A} (c : bool) (msg : string) (k : res A) : res A :=
  if c then Throw msg else k.

Class Dflt (A : Type) : Type := dflt : A.
#[global] Instance DfltZ : Dflt Z := 0.
#[global] Instance Dfltbool : Dflt bool := false.
#[global] Instance DfltPair {A B} `{Dflt A} `{Dflt B} : Dflt (A * B) := (dflt, dflt).
#[global] Instance DfltList {A} : Dflt (list A) := [].

Definition zlen {A} (l : list A) : Z := Z.of_nat (List.length l).

(** Value at an in-bounds position (a default elsewhere); used in
    specifications only. *)
Definition zn {A} `{Dflt A} (l : list A) (i : Z) : A := nth (Z.to_nat i) l dflt.

Definition rd {A} (l : list A) (i : Z) : res A :=
  if i <? 0 then UB
  else match nth_error l (Z.to_nat i) with Some x => Ok x | None => UB end.

Fixpoint upd {A} (l : list A) (n : nat) (v : A) : list A :=
  match l, n with
  | [], _ => []
  | _ :: l', O => v :: l'
  | x :: l', S n' => x :: upd l' n' v
  end.

Definition wr {A} (l : list A) (i : Z) (v : A) : res (list A) :=
  if (0 <=? i) && (i <? zlen l) then Ok (upd l (Z.to_nat i) v) else UB.

Fixpoint for_nat {S} (n : nat) (i : Z) (body : Z -> S -> res S) (s : S) : res S :=
  match n with
  | O => Ok s
  | Datatypes.S n' => s' <- body i s ;; for_nat n' (i + 1) body s'
  end.

Definition for_ {S} (lo hi : Z) (body : Z -> S -> res S) (s : S) : res S :=
  for_nat (Z.to_nat (hi - lo)) lo body s.

Fixpoint ford_nat {S} (n : nat) (i : Z) (body : Z -> S -> res S) (s : S) : res S :=
  match n with
  | O => Ok s
  | Datatypes.S n' => s' <- body i s ;; ford_nat n' (i - 1) body s'
  end.

Definition for_down {S} (hi lo : Z) (body : Z -> S -> res S) (s : S) : res S :=
  ford_nat (Z.to_nat (hi - lo + 1)) hi body s.

(** C++ integer division and remainder (truncating; undefined on zero). *)
Definition cdiv (a b : Z) : res Z := if b =? 0 then UB else Ok (Z.quot a b).
Definition crem (a b : Z) : res Z := if b =? 0 then UB else Ok (Z.rem a b).

(** [0; 1; ...; n-1] and tables *)
Definition zrange (n : Z) : list Z := map Z.of_nat (seq 0 (Z.to_nat n)).
Definition ztab {A} (n : Z) (f : Z -> A) : list A := map f (zrange n).

(** [std::vector<A> v(n)]: [n] value-initialised elements *)
Definition zrep {A} (n : Z) (x : A) : list A := repeat x (Z.to_nat n).

(** [std::vector] equality *)
Fixpoint list_eqb {A} (eqb : A -> A -> bool) (l1 l2 : list A) : bool :=
  match l1, l2 with
  | [], [] => true
  | x :: l1', y :: l2' => eqb x y && list_eqb eqb l1' l2'
  | _, _ => false
  end.

(* ------------------------------------------------------------------ *)
(** ** Lemmas *)

Lemma zlen_nonneg {A} (l : list A) : 0 <= zlen l.
Proof. unfold zlen; lia. Qed.

Lemma zlen_app {A} (l1 l2 : list A) : zlen (l1 ++ l2) = zlen l1 + zlen l2.
Proof. unfold zlen; rewrite app_length; lia. Qed.

Lemma zlen_cons {A} (x : A) l : zlen (x :: l) = zlen l + 1.
Proof. unfold zlen; simpl; lia. Qed.

Lemma zlen_nil {A} : zlen (@nil A) = 0.
Proof. reflexivity. Qed.

Lemma zlen_map {A B} (f : A -> B) l : zlen (map f l) = zlen l.
Proof. unfold zlen; rewrite map_length; lia. Qed.

Lemma zlen_zrange n : 0 <= n -> zlen (zrange n) = n.
Proof. intros; unfold zrange; rewrite zlen_map; unfold zlen; rewrite seq_length; lia. Qed.

Lemma zlen_ztab {A} n (f : Z -> A) : 0 <= n -> zlen (ztab n f) = n.
Proof. intros; unfold ztab; rewrite zlen_map; apply zlen_zrange; lia. Qed.

Lemma zlen_zrep {A} n (x : A) : 0 <= n -> zlen (zrep n x) = n.
Proof. intros; unfold zrep, zlen; rewrite repeat_length; lia. Qed.

Lemma zn_zrange n i : 0 <= i < n -> zn (zrange n) i = i.
Proof.
  intros; unfold zn, zrange.
  change (@dflt Z _) with (Z.of_nat 0).
  rewrite map_nth, seq_nth by lia. lia.
Qed.

Lemma zn_map {A B} `{Dflt A} `{Dflt B} (f : A -> B) l i :
  0 <= i < zlen l -> zn (map f l) i = f (zn l i).
Proof.
  intros Hi; unfold zn, zlen in *.
  rewrite (nth_indep (map f l) dflt (f dflt)) by (rewrite map_length; lia).
  apply map_nth.
Qed.

Lemma zn_ztab {A} `{Dflt A} n (f : Z -> A) i : 0 <= i < n -> zn (ztab n f) i = f i.
Proof.
  intros; unfold ztab. rewrite zn_map by (rewrite zlen_zrange; lia).
  rewrite zn_zrange by lia. reflexivity.
Qed.

Lemma zn_zrep {A} `{Dflt A} n (x : A) i : 0 <= i < n -> zn (zrep n x) i = x.
Proof. intros; unfold zn, zrep.
  revert i H0. intros i Hi.
  assert (Hn : (Z.to_nat i < Z.to_nat n)%nat) by lia.
  revert Hn. generalize (Z.to_nat i) as a. generalize (Z.to_nat n) as b. clear.
  induction b; intros a Ha; [lia|]. destruct a; simpl; [reflexivity|]. apply IHb; lia.
Qed.

Lemma zrange_In n i : In i (zrange n) <-> 0 <= i < n.
Proof.
  unfold zrange; rewrite in_map_iff; split.
  - intros (k & <- & Hk). apply in_seq in Hk. lia.
  - intros Hi. exists (Z.to_nat i). rewrite in_seq. lia.
Qed.

Lemma zrange_neg n : n <= 0 -> zrange n = [].
Proof. intros; unfold zrange. replace (Z.to_nat n) with 0%nat by lia. reflexivity. Qed.

Lemma zrange_succ n : 0 <= n -> zrange (n + 1) = zrange n ++ [n].
Proof.
  intros; unfold zrange. replace (Z.to_nat (n + 1)) with (S (Z.to_nat n)) by lia.
  rewrite seq_S, map_app. simpl. f_equal. f_equal. lia.
Qed.

Lemma NoDup_zrange n : NoDup (zrange n).
Proof.
  unfold zrange. apply FinFun.Injective_map_NoDup; [intros a b; lia | apply seq_NoDup].
Qed.

Lemma list_ext {A} `{Dflt A} (l1 l2 : list A) :
  zlen l1 = zlen l2 -> (forall i, 0 <= i < zlen l1 -> zn l1 i = zn l2 i) -> l1 = l2.
Proof.
  intros Hl Hi. apply nth_ext with (d := dflt) (d' := dflt); unfold zlen in *; [lia|].
  intros n Hn. specialize (Hi (Z.of_nat n)). unfold zn in Hi. rewrite Nat2Z.id in Hi.
  apply Hi; lia.
Qed.

Lemma ztab_zn {A} `{Dflt A} (l : list A) : ztab (zlen l) (zn l) = l.
Proof.
  apply list_ext; [apply zlen_ztab, zlen_nonneg|].
  rewrite zlen_ztab by apply zlen_nonneg. intros; apply zn_ztab; lia.
Qed.

Lemma ztab_ext {A} n (f g : Z -> A) :
  (forall i, 0 <= i < n -> f i = g i) -> ztab n f = ztab n g.
Proof. intros Hfg. unfold ztab. apply map_ext_in. intros a Ha. apply Hfg. now apply zrange_In. Qed.

Lemma rd_ok {A} `{Dflt A} (l : list A) i : 0 <= i < zlen l -> rd l i = Ok (zn l i).
Proof.
  intros Hi; unfold rd, zn, zlen in *.
  destruct (Z.ltb_spec i 0); [lia|].
  rewrite (nth_error_nth' l dflt) by lia. reflexivity.
Qed.

Lemma rd_oob {A} (l : list A) i : ~ (0 <= i < zlen l) -> rd l i = UB.
Proof.
  intros Hi; unfold rd, zlen in *.
  destruct (Z.ltb_spec i 0); [reflexivity|].
  destruct (nth_error l (Z.to_nat i)) eqn:E; [|reflexivity].
  assert (Hs : nth_error l (Z.to_nat i) <> None) by congruence.
  apply nth_error_Some in Hs. lia.
Qed.

Lemma rd_inv {A} `{Dflt A} (l : list A) i x : rd l i = Ok x -> 0 <= i < zlen l /\ x = zn l i.
Proof.
  intros Hr. assert (Hb : 0 <= i < zlen l \/ ~ (0 <= i < zlen l)) by lia.
  destruct Hb as [Hb|Hb].
  - rewrite rd_ok in Hr by assumption. split; [assumption|congruence].
  - rewrite rd_oob in Hr by assumption. discriminate.
Qed.

Lemma upd_length {A} (l : list A) n v : List.length (upd l n v) = List.length l.
Proof. revert n; induction l; destruct n; simpl; auto. Qed.

Lemma nth_upd {A} (l : list A) n m v d :
  (n < List.length l)%nat -> nth m (upd l n v) d = if Nat.eqb m n then v else nth m l d.
Proof.
  revert n m; induction l; simpl; intros n m Hn; [lia|].
  destruct n, m; simpl; auto. apply IHl; lia.
Qed.

Lemma wr_ok {A} `{Dflt A} (l : list A) i v :
  0 <= i < zlen l ->
  exists l', wr l i v = Ok l' /\ zlen l' = zlen l /\
    forall j, 0 <= j -> zn l' j = if j =? i then v else zn l j.
Proof.
  intros Hi. unfold wr.
  replace ((0 <=? i) && (i <? zlen l)) with true
    by (symmetry; apply andb_true_iff; split; [apply Z.leb_le|apply Z.ltb_lt]; lia).
  eexists; split; [reflexivity|]. split.
  - unfold zlen; rewrite upd_length; reflexivity.
  - intros j Hj. unfold zn, zlen in *. rewrite nth_upd by lia.
    destruct (Nat.eqb_spec (Z.to_nat j) (Z.to_nat i)), (Z.eqb_spec j i); auto; lia.
Qed.

Lemma wr_oob {A} (l : list A) i v : ~ (0 <= i < zlen l) -> wr l i v = UB.
Proof.
  intros Hi. unfold wr.
  destruct ((0 <=? i) && (i <? zlen l)) eqn:E; [|reflexivity].
  apply andb_true_iff in E as [E1 E2]. apply Z.leb_le in E1. apply Z.ltb_lt in E2. lia.
Qed.

Lemma bind_Ok {A B} (a : A) (f : A -> res B) : bind (Ok a) f = f a.
Proof. reflexivity. Qed.

(** One step of a model program: [bind (Ok a) f] is [f a]. *)
Ltac bnd := rewrite bind_Ok; cbv beta iota.
Ltac bndz := rewrite bind_Ok; cbv beta iota zeta.

Lemma bind_ok {A B} (x : res A) (f : A -> res B) b :
  bind x f = Ok b <-> exists a, x = Ok a /\ f a = Ok b.
Proof.
  destruct x; simpl; split; intros Hx.
  - eauto.
  - destruct Hx as (a' & [= <-] & Hx). exact Hx.
  - discriminate.
  - destruct Hx as (? & ? & ?); discriminate.
  - discriminate.
  - destruct Hx as (? & ? & ?); discriminate.
Qed.

(** Run bounds-checked reads whose bounds [lia] can prove. *)
Ltac rds := repeat first [rewrite bind_Ok; cbv beta iota | rewrite rd_ok by lia].

(** *** Loop rules *)

(** Total-correctness invariant rule. *)
Lemma for_inv {S} (Inv : Z -> S -> Prop) lo hi (body : Z -> S -> res S) s :
  lo <= hi ->
  Inv lo s ->
  (forall i s, lo <= i < hi -> Inv i s -> exists s', body i s = Ok s' /\ Inv (i + 1) s') ->
  exists s', for_ lo hi body s = Ok s' /\ Inv hi s'.
Proof.
  intros Hle H0 Hstep. unfold for_.
  assert (G : forall n i s, i + Z.of_nat n = hi -> lo <= i -> Inv i s ->
            exists s', for_nat n i body s = Ok s' /\ Inv hi s').
  { induction n; intros i s1 Hn Hi HI.
    - exists s1. split; [reflexivity|]. replace hi with i by lia. assumption.
    - simpl. destruct (Hstep i s1) as (s2 & E & HI2); [lia|assumption|].
      rewrite E. simpl. apply IHn; [lia|lia|assumption]. }
  apply G; [lia|lia|assumption].
Qed.

Lemma for_empty {S} lo hi (body : Z -> S -> res S) s : hi <= lo -> for_ lo hi body s = Ok s.
Proof. intros; unfold for_. replace (Z.to_nat (hi - lo)) with 0%nat by lia. reflexivity. Qed.

Lemma for_nat_snoc {S} n i (body : Z -> S -> res S) s :
  for_nat (Datatypes.S n) i body s = (s' <- for_nat n i body s ;; body (i + Z.of_nat n) s').
Proof.
  revert i s; induction n; intros i s.
  - simpl. replace (i + Z.of_nat 0) with i by lia. destruct (body i s); reflexivity.
  - change (for_nat (Datatypes.S (Datatypes.S n)) i body s)
      with (s' <- body i s ;; for_nat (Datatypes.S n) (i + 1) body s').
    change (for_nat (Datatypes.S n) i body s)
      with (s' <- body i s ;; for_nat n (i + 1) body s').
    destruct (body i s) as [s1| |]; [|reflexivity|reflexivity].
    unfold bind at 1 3. rewrite IHn.
    replace (i + 1 + Z.of_nat n) with (i + Z.of_nat (Datatypes.S n)) by lia. reflexivity.
Qed.

Lemma for_snoc {S} lo hi (body : Z -> S -> res S) s :
  lo <= hi -> for_ lo (hi + 1) body s = (s' <- for_ lo hi body s ;; body hi s').
Proof.
  intros. unfold for_. replace (Z.to_nat (hi + 1 - lo)) with (Datatypes.S (Z.to_nat (hi - lo))) by lia.
  rewrite for_nat_snoc. replace (lo + Z.of_nat (Z.to_nat (hi - lo))) with hi by lia. reflexivity.
Qed.

Lemma for_head {S} lo hi (body : Z -> S -> res S) s :
  lo < hi -> for_ lo hi body s = (s' <- body lo s ;; for_ (lo + 1) hi body s').
Proof.
  intros. unfold for_. replace (Z.to_nat (hi - lo)) with (Datatypes.S (Z.to_nat (hi - (lo + 1)))) by lia.
  reflexivity.
Qed.

Lemma for_ext {S} lo hi (b1 b2 : Z -> S -> res S) s :
  (forall i s, lo <= i < hi -> b1 i s = b2 i s) -> for_ lo hi b1 s = for_ lo hi b2 s.
Proof.
  intros Hb. unfold for_.
  assert (G : forall n i s, lo <= i -> i + Z.of_nat n <= hi \/ n = 0%nat ->
            for_nat n i b1 s = for_nat n i b2 s).
  { induction n; intros i s1 Hi Hn; [reflexivity|]. simpl.
    rewrite Hb by lia. destruct (b2 i s1); simpl; auto. apply IHn; lia. }
  apply G; lia.
Qed.

(** A loop whose body is a pure update is a fold. *)
Lemma for_pure {S} lo hi (f : Z -> S -> S) s :
  for_ lo hi (fun i s => Ok (f i s)) s
  = Ok (fold_left (fun s i => f (lo + i) s) (zrange (hi - lo)) s).
Proof.
  assert (G : forall n i s, for_nat n i (fun i s => Ok (f i s)) s
            = Ok (fold_left (fun s k => f (i + Z.of_nat k) s) (seq 0 n) s)).
  { induction n; intros i s1; [reflexivity|]. simpl. rewrite IHn.
    f_equal. replace (i + Z.of_nat 0) with i by lia.
    rewrite <- seq_shift.
    generalize (f i s1). generalize (seq 0 n). clear.
    induction l; intros s; simpl; [reflexivity|]. rewrite IHl. f_equal. f_equal. lia. }
  unfold for_. rewrite G. f_equal. unfold zrange.
  generalize (seq 0 (Z.to_nat (hi - lo))). intros l. revert s.
  induction l; intros s; simpl; [reflexivity|]. apply IHl.
Qed.

(** A loop that appends. *)
Lemma for_append {A} lo hi (body : Z -> list A -> res (list A)) (f : Z -> list A) acc :
  (forall i acc, lo <= i < hi -> body i acc = Ok (acc ++ f i)) ->
  for_ lo hi body acc = Ok (acc ++ flat_map (fun i => f (lo + i)) (zrange (hi - lo))).
Proof.
  intros Hb. destruct (Z.le_gt_cases hi lo) as [Hle|Hgt].
  - rewrite for_empty by lia. rewrite zrange_neg by lia. simpl. rewrite app_nil_r. reflexivity.
  - rewrite (for_ext _ _ _ (fun i acc => Ok (acc ++ f i))) by (intros; apply Hb; lia).
    rewrite for_pure. f_equal. generalize (zrange (hi - lo)). intros l. revert acc.
    induction l; intros acc; simpl; [rewrite app_nil_r; reflexivity|].
    rewrite IHl, app_assoc. reflexivity.
Qed.

Lemma ford_inv {S} (Inv : Z -> S -> Prop) hi lo (body : Z -> S -> res S) s :
  lo - 1 <= hi ->
  Inv hi s ->
  (forall i s, lo <= i <= hi -> Inv i s -> exists s', body i s = Ok s' /\ Inv (i - 1) s') ->
  exists s', for_down hi lo body s = Ok s' /\ Inv (lo - 1) s'.
Proof.
  intros Hle H0 Hstep. unfold for_down.
  assert (G : forall n i s, i - Z.of_nat n = lo - 1 -> i <= hi -> Inv i s ->
            exists s', ford_nat n i body s = Ok s' /\ Inv (lo - 1) s').
  { induction n; intros i s1 Hn Hi HI.
    - exists s1. split; [reflexivity|]. replace (lo - 1) with i by lia. assumption.
    - simpl. destruct (Hstep i s1) as (s2 & E & HI2); [lia|assumption|].
      rewrite E. simpl. apply IHn; [lia|lia|assumption]. }
  apply G; [lia|lia|assumption].
Qed.

Lemma list_eqb_Z (l1 l2 : list Z) : list_eqb Z.eqb l1 l2 = true <-> l1 = l2.
Proof.
  revert l2; induction l1; destruct l2; simpl; split; intros Hx; try congruence; try discriminate.
  - apply andb_true_iff in Hx as [Ha Hb]. apply Z.eqb_eq in Ha. apply IHl1 in Hb. congruence.
  - inversion Hx; subst. apply andb_true_iff; split; [apply Z.eqb_refl|]. now apply IHl1.
Qed.

Lemma cdiv_ok a b : 0 <= a -> 0 < b -> cdiv a b = Ok (a / b).
Proof.
  intros; unfold cdiv. destruct (Z.eqb_spec b 0); [lia|]. f_equal. apply Z.quot_div_nonneg; lia.
Qed.
Lemma crem_ok a b : 0 <= a -> 0 < b -> crem a b = Ok (a mod b).
Proof.
  intros; unfold crem. destruct (Z.eqb_spec b 0); [lia|]. f_equal. apply Z.rem_mod_nonneg; lia.
Qed.

(* ------------------------------------------------------------------ *)
(** ** Pointwise loops

    [pw L P G f]: run on any array of length [L], [f] succeeds, keeps the length,
    and replaces exactly the cells [j] with [P j] by [G j old]. *)
Definition pw {T} `{Dflt T} (L : Z) (P : Z -> bool) (G : Z -> (Z -> T) -> T)
    (f : list T -> res (list T)) : Prop :=
  forall d, zlen d = L ->
    exists d', f d = Ok d' /\ zlen d' = L /\
      forall j, 0 <= j < L -> zn d' j = if P j then G j (zn d) else zn d j.

(** Each iteration [i] owns the cells [j] with [owner j = i]; [G] must only
    depend on cells of the same owner. *)
Lemma pw_for {T} `{Dflt T} L n (owner : Z -> Z) (G : Z -> (Z -> T) -> T) body :
  0 <= n ->
  (forall i, 0 <= i < n -> pw L (fun j => owner j =? i) G (body i)) ->
  (forall j f g, 0 <= j < L -> 0 <= owner j < n ->
     (forall j', 0 <= j' < L -> owner j' = owner j -> f j' = g j') -> G j f = G j g) ->
  pw L (fun j => (0 <=? owner j) && (owner j <? n)) G (for_ 0 n body).
Proof.
  intros Hn Hb Hloc d Hd.
  destruct (for_inv (fun i d' => zlen d' = L /\
     forall j, 0 <= j < L -> zn d' j = if (0 <=? owner j) && (owner j <? i) then G j (zn d) else zn d j)
     0 n body d) as (d' & E & Hl & Hd'); [lia| | |].
  - split; [assumption|]. intros j Hj.
    destruct (Z.leb_spec 0 (owner j)), (Z.ltb_spec (owner j) 0); simpl; auto; lia.
  - intros i s Hi (Hls & Hs). destruct (Hb i Hi s Hls) as (s' & E & Hl' & Hs').
    exists s'. split; [assumption|]. split; [assumption|].
    intros j Hj. rewrite Hs' by assumption.
    destruct (Z.eqb_spec (owner j) i) as [Ho|Ho].
    + replace ((0 <=? owner j) && (owner j <? i + 1)) with true
        by (symmetry; apply andb_true_iff; split; [apply Z.leb_le|apply Z.ltb_lt]; lia).
      apply Hloc; [assumption|lia|]. intros j' Hj' Ho'. rewrite Hs by assumption.
      replace ((0 <=? owner j') && (owner j' <? i)) with false; [reflexivity|].
      symmetry. apply andb_false_iff. right. apply Z.ltb_ge. lia.
    + rewrite Hs by assumption.
      destruct (Z.leb_spec 0 (owner j)), (Z.ltb_spec (owner j) i), (Z.ltb_spec (owner j) (i + 1));
        simpl; auto; lia.
  - exists d'. auto.
Qed.

Lemma pw_weaken {T} `{Dflt T} L P P' (G G' : Z -> (Z -> T) -> T) f :
  pw L P G f ->
  (forall j, 0 <= j < L -> P j = P' j) ->
  (forall j d, 0 <= j < L -> P' j = true -> G j d = G' j d) ->
  pw L P' G' f.
Proof.
  intros Hf HP HG d Hd. destruct (Hf d Hd) as (d' & E & Hl & Hd').
  exists d'. split; [assumption|]. split; [assumption|]. intros j Hj.
  rewrite Hd' by assumption. rewrite HP by assumption.
  destruct (P' j) eqn:E'; [|reflexivity]. apply HG; assumption.
Qed.

(** Single write at [i] of a value computed from the array. *)
Lemma pw_wr {T} `{Dflt T} L i (v : list T -> T) (G : Z -> (Z -> T) -> T) f :
  0 <= i < L ->
  (forall d, zlen d = L -> f d = wr d i (v d) /\ v d = G i (zn d)) ->
  pw L (fun j => j =? i) G f.
Proof.
  intros Hi Hf d Hd. destruct (Hf d Hd) as (E & Ev).
  destruct (wr_ok d i (v d)) as (d' & E' & Hl & Hd'); [lia|].
  exists d'. split; [congruence|]. split; [lia|]. intros j Hj.
  rewrite Hd' by lia. destruct (Z.eqb_spec j i); [subst|]; auto.
Qed.

(** A fully-covering pointwise function is determined cell by cell. *)
Lemma pw_tab {T} `{Dflt T} L P (G : Z -> (Z -> T) -> T) f d :
  pw L P G f -> zlen d = L -> (forall j, 0 <= j < L -> P j = true) ->
  f d = Ok (ztab L (fun j => G j (zn d))).
Proof.
  intros Hf Hd HP. destruct (Hf d Hd) as (d' & E & Hl & Hd'). rewrite E. f_equal.
  assert (0 <= L) by (rewrite <- Hd; apply zlen_nonneg).
  apply list_ext; [rewrite zlen_ztab; lia|].
  intros j Hj. rewrite zn_ztab by lia. rewrite Hd' by lia. rewrite HP by lia. reflexivity.
Qed.

Lemma pw_tab_if {T} `{Dflt T} L P (G : Z -> (Z -> T) -> T) f d :
  pw L P G f -> zlen d = L ->
  f d = Ok (ztab L (fun j => if P j then G j (zn d) else zn d j)).
Proof.
  intros Hf Hd. destruct (Hf d Hd) as (d' & E & Hl & Hd'). rewrite E. f_equal.
  assert (0 <= L) by (rewrite <- Hd; apply zlen_nonneg).
  apply list_ext; [rewrite zlen_ztab; lia|].
  intros j Hj. rewrite zn_ztab by lia. rewrite Hd' by lia. reflexivity.
Qed.
