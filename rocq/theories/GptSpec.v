(** * The function GPT2 computes

    Mathematics only.  Hidden states are functions of feature, position in the sequence and number
    in the batch; [P j] is the [j]-th of the parameters of the model, a function of its indices. *)
From Coq Require Import Reals.
From Verif Require Import RSum AttnSpec.
From Coq Require Import List ZArith.
Import ListNotations.
Local Close Scope Z_scope.
Local Open Scope R_scope.

Section Gpt2.
(** features, heads, features of a head, positions, batch size, inner features of the MLP, size of
    the vocabulary, epsilon, activation *)
Variables (e nh h n nb inner V : Z) (eps : R) (act : R -> R).
Definition hidden := Z -> Z -> Z -> R.

(** (x - mean) / sqrt (variance + eps), times gamma, plus beta; over the features *)
Definition normalized (gamma beta : arr) (x : hidden) : hidden := fun i s t =>
  let mean := Rsum e (fun k => x k s t) / IZR e in
  let var := Rsum e (fun k => (x k s t - mean) * (x k s t - mean)) / IZR e in
  gamma [i] * ((x i s t - mean) / sqrt (var + eps)) + beta [i].
(** a matrix [output; input] applied at every position of every sequence, and a bias *)
Definition affine (K : Z) (w bias : arr) (x : hidden) : hidden := fun j s t => Rsum K (fun k => w [j; k] * x k s t) + bias [j].
(** queries, keys or values of all heads: [feature; position; batch; head] *)
Definition projected (w bias : arr) (x : hidden) : arr := fun l =>
  match l with [d; s; t; y] => Rsum e (fun k => w [y; d; k] * x k s t) + bias [d; y] | _ => 0 end.
(** a query sees its own position and the ones before *)
Definition causal (l : list Z) : bool := match l with [key; query] => (key <=? query)%Z | _ => true end.
Definition self_attention (wq wk wv bq bk bv w bo : arr) (x : hidden) : hidden := fun o s t =>
  Rsum nh (fun y => Rsum h (fun d => w [o; y; d] * attention h n causal (projected wk bk x) (projected wq bq x) (projected wv bv x) d s t y)) + bo [o].

Section Params.
Variables (tokens : Z -> Z -> Z) (positions : Z -> Z) (P : nat -> arr).
(** the first half of a block, whose parameters start at number [p] *)
Definition attended (p : nat) (x : hidden) : hidden :=
  let z := normalized (P p) (P (p + 1)%nat) x in
  fun i s t => x i s t + self_attention (P (p + 2)%nat) (P (p + 3)%nat) (P (p + 4)%nat) (P (p + 5)%nat) (P (p + 6)%nat) (P (p + 7)%nat) (P (p + 8)%nat) (P (p + 9)%nat) z i s t.
(** what the activation is applied to *)
Definition preactivation (p : nat) (x : hidden) : hidden :=
  affine e (P (p + 12)%nat) (P (p + 13)%nat) (normalized (P (p + 10)%nat) (P (p + 11)%nat) (attended p x)).
Definition block (p : nat) (x : hidden) : hidden :=
  fun i s t => attended p x i s t + affine inner (P (p + 14)%nat) (P (p + 15)%nat) (fun j s t => act (preactivation p x j s t)) i s t.
(** token embedding plus position embedding *)
Definition embedded : hidden := fun i s t => P 0%nat [i; tokens s t] + P 1%nat [i; positions s].
Fixpoint states (k : nat) : hidden := match k with O => embedded | S k => block (2 + 16 * k) (states k) end.
Definition logits (layers : nat) : hidden :=
  let p := (2 + 16 * layers)%nat in
  fun v s t => Rsum e (fun k => P (p + 2)%nat [v; k] * normalized (P p) (P (p + 1)%nat) (states layers) k s t).
(** cross-entropy: the sum over all positions of -log of the soft-max at the label *)
Definition cross_entropy (labels : Z -> Z -> Z) (y : hidden) : R :=
  Rsum n (fun s => Rsum nb (fun t => ln (Rsum V (fun v => exp (y v s t))) - y (labels s t) s t)).
End Params.
End Gpt2.

(** shapes of the parameters, in order: two embedding tables; for each block the first
    normalisation, q k v weights, their biases, output weight and bias of the attention, second
    normalisation, the two linear layers of the MLP; the last normalisation; the language head *)
Definition block_shapes (e nh h inner : Z) : list (list Z) :=
  [[e]; [e]; [nh; h; e]; [nh; h; e]; [nh; h; e]; [h; nh]; [h; nh]; [h; nh]; [e; nh; h]; [e]; [e]; [e]; [inner; e]; [inner]; [e; inner]; [e]].
Definition param_shapes (e nh h inner V maxpos : Z) (layers : nat) : list (list Z) :=
  [[e; V]; [e; maxpos]] ++ concat (repeat (block_shapes e nh h inner) layers) ++ [[e]; [e]; [V; e]].
