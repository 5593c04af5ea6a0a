(** * C70: parameters of torch's GPT2 loaded by from_torch; C71: written back by to_torch *)
From Coq Require Import String Reals.
From Verif Require Import Base Spec RSum AttnSpec GptSpec GptTorchSpec TorchMath Geometry Traits TraitsProofs Runtime Ops TensorSem Sequence XReals NdRuns NumpyIO PropNumpy Checkpoint PropCheckpoint GptTorch.
Import ListNotations.
Local Close Scope R_scope.
Local Close Scope string_scope.
Local Open Scope list_scope.
Local Open Scope Z_scope.

(** ** Row-major order *)
Lemma ravel_bound sh : forall idx, inb sh idx -> 0 <= c_ravel sh idx < prodZ sh.
Proof.
  induction sh as [|n sh IH]; intros idx H; inversion H; subst; cbn [c_ravel prodZ]; [lia|]. specialize (IH _ H4). nia.
Qed.
Lemma unravel_ravel sh : forall idx, inb sh idx -> c_unravel sh (c_ravel sh idx) = idx.
Proof.
  induction sh as [|n sh IH]; intros idx H; inversion H; subst; cbn [c_ravel c_unravel]; [reflexivity|].
  pose proof (ravel_bound _ _ H4) as B. rewrite Z.div_add_l, Z.div_small, Z.add_0_r by lia. f_equal.
  rewrite Z.add_comm, Z.mod_add, Z.mod_small by lia. apply IH, H4.
Qed.
Lemma unravel1 (a k : Z) : c_unravel [a] k = [k].
Proof. cbn [c_unravel prodZ]. rewrite Z.div_1_r. reflexivity. Qed.
Lemma unravel2 (a b i j : Z) : 0 <= j < b -> c_unravel [a; b] (i * b + j) = [i; j].
Proof.
  intros H. cbn [c_unravel prodZ]. rewrite !Z.mul_1_r, Z.div_1_r, Z.div_add_l, Z.div_small, Z.add_0_r by lia.
  rewrite Z.add_comm, Z.mod_add, Z.mod_small by lia. reflexivity.
Qed.
Lemma unravel2' (a b k : Z) : c_unravel [a; b] k = [k / b; k mod b].
Proof. cbn [c_unravel prodZ]. rewrite !Z.mul_1_r, Z.div_1_r. reflexivity. Qed.
Lemma unravel3 (a b c i j k : Z) : 0 <= j < b -> 0 <= k < c -> c_unravel [a; b; c] (i * (b * c) + (j * c + k)) = [i; j; k].
Proof.
  intros H1 H2. change (c_unravel [a; b; c] ?x) with (x / prodZ [b; c] :: c_unravel [b; c] (x mod prodZ [b; c])).
  replace (prodZ [b; c]) with (b * c) by (cbn [prodZ]; ring).
  assert (0 <= j * c + k < b * c) by nia.
  rewrite Z.div_add_l, (Z.div_small (j * c + k)), Z.add_0_r by lia. rewrite Z.add_comm, Z.mod_add, Z.mod_small by lia.
  f_equal. apply unravel2. assumption.
Qed.

Lemma reshape_ok {X} sh (a : narr X) : prodZ sh = prodZ (n_shape a) ->
  reshape sh a = Ok (mkN sh (fun idx => n_at a (c_unravel (n_shape a) (c_ravel sh idx)))).
Proof. intros E. unfold reshape. rewrite (proj2 (Z.eqb_eq _ _) E). reflexivity. Qed.

Section Convert.
Context {X : Type}.
Variables (e nh h : Z).
Hypothesis Hh : 0 < h.
Hypothesis Hnh : 0 < nh.
Hypothesis He : e = nh * h.

Lemma hs_eq : head_size e nh = h.
Proof. unfold head_size. rewrite He, Z.mul_comm. apply Z.div_mul. lia. Qed.
Lemma cut3 m : 0 <= m < 3 -> Z.min (m * e) (3 * e) = m * e /\ Z.min ((m + 1) * e) (3 * e) = m * e + e.
Proof. intros Hm. assert (0 < e) by nia. split; nia. Qed.
Lemma cols_e (w : list Z -> X) m r : 0 <= m < 3 -> exists a, cols (m * e) ((m + 1) * e) (mkN [r; 3 * e] w) = Ok a /\
  n_shape a = [r; e] /\ forall i j, n_at a [i; j] = w [i; m * e + j].
Proof.
  intros Hm. destruct (cut3 m Hm) as [C1 C2]. unfold cols. cbn [n_shape n_at]. rewrite C1, C2.
  eexists. split; [reflexivity|]. cbn [n_shape n_at]. split; [repeat f_equal; lia|]. reflexivity.
Qed.
Lemma rows_e (w : list Z -> X) m : 0 <= m < 3 -> exists a, rows (m * e) ((m + 1) * e) (mkN [3 * e] w) = Ok a /\
  n_shape a = [e] /\ forall j, n_at a [j] = w [m * e + j].
Proof.
  intros Hm. destruct (cut3 m Hm) as [C1 C2]. unfold rows. cbn [n_shape n_at]. rewrite C1, C2.
  eexists. split; [reflexivity|]. cbn [n_shape n_at]. split; [repeat f_equal; lia|]. reflexivity.
Qed.
Lemma qkv_weight_ok (w : list Z -> X) m : 0 <= m < 3 -> exists a, qkv_weight e nh (mkN [e; 3 * e] w) m = Ok a /\ n_shape a = [nh; h; e] /\
  forall y d k, 0 <= y < nh -> 0 <= d < h -> 0 <= k < e -> n_at a [y; d; k] = w [k; m * e + (y * h + d)].
Proof.
  intros Hm. destruct (cols_e w m e Hm) as (a & E & Sa & Va). unfold qkv_weight. rewrite E, hs_eq. cbn [bind].
  rewrite reshape_ok by (cbn [transpose n_shape]; rewrite Sa; cbn [rev app prodZ]; nia).
  eexists. split; [reflexivity|]. split; [reflexivity|]. intros y d k Hy Hd Hk. cbn [n_at transpose n_shape]. rewrite Sa. cbn [rev app].
  replace (c_ravel [nh; h; e] [y; d; k]) with ((y * h + d) * e + k) by (cbn [c_ravel prodZ]; ring).
  rewrite unravel2 by lia. cbn [rev app]. apply Va.
Qed.
Lemma qkv_bias_ok (w : list Z -> X) m : 0 <= m < 3 -> exists a, qkv_bias e nh (mkN [3 * e] w) m = Ok a /\ n_shape a = [h; nh] /\
  forall y d, 0 <= y < nh -> 0 <= d < h -> n_at a [d; y] = w [m * e + (y * h + d)].
Proof.
  intros Hm. destruct (rows_e w m Hm) as (a & E & Sa & Va). unfold qkv_bias. rewrite E, hs_eq. cbn [bind].
  rewrite reshape_ok by (rewrite Sa; cbn [prodZ]; nia). cbn [bind].
  eexists. split; [reflexivity|]. split; [reflexivity|]. intros y d Hy Hd. cbn [n_at transpose n_shape rev app]. rewrite Sa.
  replace (c_ravel [nh; h] [y; d]) with (y * h + d) by (cbn [c_ravel prodZ]; ring). rewrite unravel1. apply Va.
Qed.
Lemma three_ok (f : Z -> res (narr X)) sh (R : nat -> narr X -> Prop) :
  (forall m, (m < 3)%nat -> exists a, f (Z.of_nat m) = Ok a /\ n_shape a = sh /\ R m a) ->
  exists a0 a1 a2, three f = Ok [a0; a1; a2] /\ n_shape a0 = sh /\ n_shape a1 = sh /\ n_shape a2 = sh /\ R 0%nat a0 /\ R 1%nat a1 /\ R 2%nat a2.
Proof.
  intros H. destruct (H 0%nat ltac:(lia)) as (a0 & E0 & S0 & R0), (H 1%nat ltac:(lia)) as (a1 & E1 & S1 & R1), (H 2%nat ltac:(lia)) as (a2 & E2 & S2 & R2).
  exists a0, a1, a2. unfold three. change 0 with (Z.of_nat 0). change 1 with (Z.of_nat 1). change 2 with (Z.of_nat 2). rewrite E0, E1, E2. cbn [bind]. tauto.
Qed.
Lemma proj_weight_ok (w : list Z -> X) : exists a, reshape [e; nh; head_size e nh] (transpose (mkN [e; e] w)) = Ok a /\ n_shape a = [e; nh; h] /\
  forall o y d, 0 <= o < e -> 0 <= y < nh -> 0 <= d < h -> n_at a [o; y; d] = w [y * h + d; o].
Proof.
  rewrite hs_eq. rewrite reshape_ok by (cbn [transpose n_shape rev app prodZ]; nia).
  eexists. split; [reflexivity|]. split; [reflexivity|]. intros o y d Ho Hy Hd. cbn [n_at transpose n_shape rev app].
  replace (c_ravel [e; nh; h] [o; y; d]) with (o * e + (y * h + d)) by (cbn [c_ravel prodZ]; rewrite He; ring).
  rewrite unravel2 by nia. reflexivity.
Qed.
Lemma torch_arrays_app (l1 l2 : list (named X)) :
  torch_arrays e nh (l1 ++ l2) = (a <- torch_arrays e nh l1 ;; b <- torch_arrays e nh l2 ;; Ok (a ++ b)).
Proof.
  induction l1 as [|p l1 IH]; cbn [torch_arrays app bind].
  - destruct (torch_arrays e nh l2); reflexivity.
  - rewrite IH. destruct (torch_param e nh p); cbn [bind]; [|reflexivity..].
    destruct (torch_arrays e nh l1); cbn [bind]; [|reflexivity..].
    destruct (torch_arrays e nh l2); cbn [bind]; [|reflexivity..]. rewrite app_assoc. reflexivity.
Qed.
End Convert.

Section Model.
Variables (e nh h inner V maxpos : Z).
Hypothesis Hh : 0 < h.
Hypothesis Hnh : 0 < nh.
Hypothesis He : e = nh * h.
Notation named := (named R).
Definition nothing : narr R := mkN [] (fun _ => 0%R).
(** the values of the parameters in a list of arrays *)
Definition values (l : list (narr R)) (j : nat) : arr := n_at (nth j l nothing).

Lemma bconv_ext (P P' Q Q' : nat -> arr) : (forall i, (i < 16)%nat -> P' i = P i) -> (forall i, (i < 12)%nat -> Q' i = Q i) ->
  bconv e nh h P Q -> bconv e nh h P' Q'.
Proof.
  intros HP HQ [b1 b2 b3 b4 b5 b6 b7 b8 b9 b10 b11 b12].
  split; intros; rewrite HP, HQ by lia; auto.
Qed.
Lemma block_from num Q k : exists l, torch_arrays e nh (torch_block_params e inner num Q k) = Ok l /\ map n_shape l = block_shapes e nh h inner /\
  bconv e nh h (values l) (fun i => Q (2 + 12 * k + i)%nat).
Proof.
  unfold torch_block_params. cbv zeta.
  destruct (three_ok (qkv_weight e nh (mkN [e; 3 * e] (Q (2 + 12 * k + 2)%nat))) [nh; h; e]
    (fun m a => forall y d j, 0 <= y < nh -> 0 <= d < h -> 0 <= j < e -> n_at a [y; d; j] = Q (2 + 12 * k + 2)%nat [j; Z.of_nat m * e + (y * h + d)])) as (w0 & w1 & w2 & Ew & Sw0 & Sw1 & Sw2 & W0 & W1 & W2).
  { intros m Hm. apply qkv_weight_ok; try assumption. lia. }
  destruct (three_ok (qkv_bias e nh (mkN [3 * e] (Q (2 + 12 * k + 3)%nat))) [h; nh]
    (fun m a => forall y d, 0 <= y < nh -> 0 <= d < h -> n_at a [d; y] = Q (2 + 12 * k + 3)%nat [Z.of_nat m * e + (y * h + d)])) as (b0 & b1 & b2 & Eb & Sb0 & Sb1 & Sb2 & B0 & B1 & B2).
  { intros m Hm. apply qkv_bias_ok; try assumption. lia. }
  destruct (proj_weight_ok e nh h Hh Hnh He (Q (2 + 12 * k + 4)%nat)) as (pw & Ep & Sp & Wp).
  cbn [torch_arrays torch_param rev app String.eqb Ascii.eqb Bool.eqb andb]. rewrite Ew, Eb, Ep. cbn [bind app].
  eexists. split; [reflexivity|]. split.
  { cbn [map transpose n_shape rev app]. rewrite Sw0, Sw1, Sw2, Sb0, Sb1, Sb2, Sp. reflexivity. }
  split; try (intros; unfold values; cbn [nth n_at transpose rev app]; rewrite ?Nat.add_0_r; reflexivity).
  - intros m y d j Hm Hy Hd Hj. unfold values. destruct m as [|[|[|m]]]; [apply W0|apply W1|apply W2|lia]; assumption.
  - intros m y d Hm Hy Hd. unfold values. destruct m as [|[|[|m]]]; [apply B0|apply B1|apply B2|lia]; assumption.
  - exact Wp.
Qed.
Lemma blocks_from num Q L : exists l, torch_arrays e nh (flat_map (torch_block_params e inner num Q) (seq 0 L)) = Ok l /\
  map n_shape l = List.concat (repeat (block_shapes e nh h inner) L) /\ List.length l = (16 * L)%nat /\
  forall k, (k < L)%nat -> bconv e nh h (fun i => values l (16 * k + i)) (fun i => Q (2 + 12 * k + i)%nat).
Proof.
  induction L as [|L (l & E & S & N & B)].
  { exists []. split; [reflexivity|]. split; [reflexivity|]. split; [reflexivity|]. intros k Hk. lia. }
  destruct (block_from num Q L) as (a & Ea & Sa & Ba).
  assert (Na : List.length a = 16%nat) by (rewrite <- (map_length n_shape), Sa; reflexivity).
  exists (l ++ a). rewrite seq_S, flat_map_app, torch_arrays_app, E. cbn [flat_map]. rewrite app_nil_r, Nat.add_0_l, Ea. cbn [bind].
  split; [reflexivity|]. split; [|split].
  - rewrite map_app, S, Sa. cbn [repeat]. rewrite repeat_cons, concat_app. cbn [List.concat]. rewrite app_nil_r. reflexivity.
  - rewrite app_length, N, Na. lia.
  - intros k Hk. destruct (Nat.eq_dec k L) as [->|].
    + eapply bconv_ext; [| |exact Ba]; [|reflexivity]. intros i Hi. unfold values. rewrite app_nth2 by lia. replace (16 * L + i - List.length l)%nat with i by lia. reflexivity.
    + eapply bconv_ext; [| |apply (B k); lia]; [|reflexivity]. intros i Hi. unfold values. rewrite app_nth1 by lia. reflexivity.
Qed.
Theorem from_torch_arrays num Q L : exists l, torch_arrays e nh (named_parameters e inner V maxpos num Q L) = Ok l /\
  map n_shape l = param_shapes e nh h inner V maxpos L /\ mconv e nh h L (values l) Q.
Proof.
  destruct (blocks_from num Q L) as (l & E & S & N & B).
  unfold named_parameters. cbv zeta.
  pose proof (fun l1 l2 => torch_arrays_app (X := R) e nh l1 l2) as TA. unfold GptTorch.named in *. rewrite !TA, E.
  cbn [torch_arrays torch_param rev app String.eqb Ascii.eqb Bool.eqb andb bind].
  eexists. split; [reflexivity|]. split.
  - unfold param_shapes. cbn [map app]. rewrite map_app, S. reflexivity.
  - assert (NB : forall j, (j < 16 * L)%nat -> forall a b r, nth (2 + j) (a :: b :: l ++ r) nothing = nth j l nothing).
    { intros j Hj a b r. cbn [nth Nat.add]. apply app_nth1. lia. }
    assert (NE : forall i a b r, nth (2 + 16 * L + i) (a :: b :: l ++ r) nothing = nth i r nothing).
    { intros i a b r. cbn [nth Nat.add]. rewrite app_nth2 by lia. f_equal. lia. }
    split; unfold values.
    + reflexivity.
    + reflexivity.
    + intros k Hk. eapply bconv_ext; [| |apply (B k); exact Hk]; [|reflexivity]. intros i Hi. cbn [app]. unfold values. f_equal.
      rewrite <- Nat.add_assoc. apply NB. lia.
    + intros i. cbn [app]. rewrite <- (Nat.add_0_r (2 + 16 * L)), NE. reflexivity.
    + intros i. cbn [app]. rewrite NE. reflexivity.
    + intros v k. cbn [app]. rewrite NE. reflexivity.
Qed.
End Model.

(** ** from_torch as tasks *)
(** the tensors [ts] are stored, the conversion's arrays, from_array's one-tile tensors and its scratch
    have memory of their own *)
Record room {T} (s : store T) (mem : nat -> handle) (q : nat -> slot) (ts : list tensor) : Prop := {
  rm_t : forall j t, nth_error ts j = Some t -> wf_tensor t /\ stored KF s t /\
    ty (s (mem j)) = (KF, prodZ (t_shape t)) /\ ty (s (sl_next (q j))) = (KF, prodZ (t_shape t)) /\ ty (s (sl_scr (q j))) = (KI, 2 * zlen (t_shape t));
  rm_sep : forall i j t, (i < List.length ts)%nat -> nth_error ts j = Some t -> ~ In (mem i) (tile_handles t) /\ ~ In (sl_next (q i)) (tile_handles t);
  rm_next : forall i j, (i < List.length ts)%nat -> (j < List.length ts)%nat -> sl_next (q i) <> mem j;
  rm_disj : forall i j t u, i <> j -> nth_error ts i = Some t -> nth_error ts j = Some u -> disj t u
}.
(** the memory [mem j] holds array number [j], as column-major from_array wants it *)
Definition holds_arrays (s : store XR) (mem : nat -> handle) (l : list (narr R)) : Prop :=
  forall j a idx, nth_error l j = Some a -> inb (n_shape a) idx -> acell s {| a_shape := n_shape a; a_mem := mem j |} idx = Fin (n_at a idx).

Lemma in_memory_nth {X} mem (l : list (narr X)) j : nth_error (in_memory mem l) j = option_map (fun a => {| a_shape := n_shape a; a_mem := mem j |}) (nth_error l j).
Proof.
  unfold in_memory.
  assert (G : forall k, nth_error (map (fun '(j, a) => {| a_shape := n_shape a; a_mem := mem j |}) (combine (seq k (List.length l)) l)) j =
    option_map (fun a => {| a_shape := n_shape a; a_mem := mem (k + j)%nat |}) (nth_error l j)).
  { revert j. induction l as [|a l IH]; intros j k; [destruct j; reflexivity|]. cbn [List.length seq combine map]. destruct j; cbn [nth_error option_map]; [rewrite Nat.add_0_r; reflexivity|].
    rewrite IH. replace (Datatypes.S k + j)%nat with (k + Datatypes.S j)%nat by lia. reflexivity. }
  exact (G 0%nat).
Qed.
Lemma in_memory_len {X} mem (l : list (narr X)) : List.length (in_memory mem l) = List.length l.
Proof. unfold in_memory. rewrite map_length, combine_length, seq_length. lia. Qed.
Lemma param_shapes_ne e nh h inner V maxpos L : Forall (fun sh => sh <> []) (param_shapes e nh h inner V maxpos L).
Proof.
  unfold param_shapes. rewrite !Forall_app. split; [|split]; try (repeat constructor; discriminate).
  apply Forall_concat. apply Forall_forall. intros x Hx. apply repeat_spec in Hx. subst. repeat constructor; discriminate.
Qed.
Lemma room_loadable {T X} (s : store T) mem q ts (l : list (narr X)) : map n_shape l = map t_shape ts -> Forall (fun sh => sh <> []) (map t_shape ts) ->
  room s mem q ts -> loadable s (in_memory mem l) ts q.
Proof.
  intros ES HN [r1 r2 r3 r4].
  assert (EL : List.length l = List.length ts) by (rewrite <- (map_length n_shape), ES; apply map_length).
  assert (HI : forall j x, nth_error (in_memory mem l) j = Some x -> (j < List.length ts)%nat /\ a_mem x = mem j /\ exists a, nth_error l j = Some a /\ a_shape x = n_shape a).
  { intros j x Hx. rewrite in_memory_nth in Hx. destruct (nth_error l j) as [a|] eqn:E; [|discriminate]. injection Hx as <-.
    split; [rewrite <- EL; apply nth_error_Some; congruence|]. split; [reflexivity|]. exists a. split; reflexivity. }
  split.
  - intros j x t Hx Ht. destruct (r1 j t Ht) as (W & St & T1 & T2 & T3). destruct (HI j x Hx) as (Hj & Em & a & Ea & Es).
    assert (E : n_shape a = t_shape t).
    { apply (map_nth_error n_shape) in Ea. apply (map_nth_error t_shape) in Ht. congruence. }
    repeat (split; [assumption|]). split.
    { rewrite Forall_forall in HN. apply HN. apply in_map. eapply nth_error_In; exact Ht. }
    split; [assumption|]. split; [congruence|]. split; [|split; assumption]. unfold anew. rewrite Em, T1, Es, E. reflexivity.
  - intros i j x t Hx Ht. destruct (HI i x Hx) as (Hi & Em & _). rewrite Em. apply (r2 i j t Hi Ht).
  - intros i j x Hi Hx. destruct (HI j x Hx) as (Hj & Em & _). rewrite in_memory_len, EL in Hi. rewrite Em. apply r3; assumption.
  - exact r4.
Qed.

Section Loaded.
Variables (e nh h inner V maxpos : Z).
Hypothesis Hh : 0 < h.
Hypothesis Hnh : 0 < nh.
Hypothesis He : e = nh * h.
Lemma from_torch_runs num Q L l mem q ts (s : store XR) :
  torch_arrays e nh (named_parameters e inner V maxpos num Q L) = Ok l -> map n_shape l = map t_shape ts ->
  map t_shape ts = param_shapes e nh h inner V maxpos L -> room s mem q ts -> holds_arrays s mem l ->
  runs_nd (from_torch e nh (named_parameters e inner V maxpos num Q L) mem q ts) s (fun s' =>
    (forall j t idx, nth_error ts j = Some t -> inb (t_shape t) idx -> elem s' t idx = Fin (values l j idx)) /\
    (forall k, (forall j, (j < List.length ts)%nat -> k <> sl_next (q j)) -> (forall t, In t ts -> ~ In k (tile_handles t)) -> s' k = s k)).
Proof.
  intros E ES EP HR HA. unfold from_torch. rewrite E. cbn [bind].
  assert (EL : List.length l = List.length ts) by (rewrite <- (map_length n_shape), ES; apply map_length).
  eapply nd_weaken; [apply loads_runs; [discriminate|rewrite map_length, in_memory_len, EL; lia|]|].
  { rewrite map_snd_pair. apply room_loadable; [exact ES| |exact HR]. rewrite EP. apply param_shapes_ne. }
  intros s' _ [H1 H2]. split.
  - intros j t idx Ht Hi. destruct (nth_error l j) as [a|] eqn:Ea.
    + rewrite (H1 j (Numpy, {| a_shape := n_shape a; a_mem := mem j |}) t idx); [|apply map_nth_error; rewrite in_memory_nth, Ea; reflexivity|exact Ht|exact Hi].
      cbn [snd]. assert (En : n_shape a = t_shape t).
      { pose proof (map_nth_error n_shape _ _ Ea). apply (map_nth_error t_shape) in Ht. congruence. }
      rewrite (HA j a idx Ea) by (rewrite En; exact Hi). unfold values. rewrite (nth_error_nth _ _ _ Ea). reflexivity.
    + exfalso. apply nth_error_None in Ea. assert (j < List.length ts)%nat by (apply nth_error_Some; congruence). lia.
  - intros k K1 K2. apply H2.
    + intros j Hj. rewrite map_length, in_memory_len, EL in Hj. apply K1, Hj.
    + intros j t Hj Ht. apply K2. eapply nth_error_In; exact Ht.
Qed.
(** Loading the parameters of torch's GPT2 into tensors of the shapes of NNTile's parameters: no
    from_array raises, and the function NNTile's model then has is torch's *)
Theorem C70_from_torch num (Q : nat -> list Z -> R) L ts :
  map t_shape ts = param_shapes e nh h inner V maxpos L ->
  let torch := named_parameters e inner V maxpos num Q L in
  exists l, torch_arrays e nh torch = Ok l /\ map n_shape l = map t_shape ts /\
    forall mem q (s : store XR), room s mem q ts -> holds_arrays s mem l ->
      runs_nd (from_torch e nh torch mem q ts) s (fun s' => exists P,
        (forall j t idx, nth_error ts j = Some t -> inb (t_shape t) idx -> elem s' t idx = Fin (P j idx)) /\
        forall n eps act tokens positions v i t,
          logits e nh h n inner eps act tokens positions P L v i t = torch_logits e h n inner eps act tokens positions Q L v i t).
Proof.
  intros EP torch. destruct (from_torch_arrays e nh h inner V maxpos Hh Hnh He num Q L) as (l & E & S & M).
  exists l. split; [exact E|]. split; [congruence|]. intros mem q s HR HA.
  eapply nd_weaken; [apply (from_torch_runs num Q L l); try assumption; congruence|].
  intros s' _ [H1 _]. exists (values l). split; [exact H1|]. intros. apply mconv_logits; assumption.
Qed.
End Loaded.
