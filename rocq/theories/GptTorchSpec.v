(** * The function torch's GPT2 computes

    Mathematics only: transformers' [GPT2LMHeadModel] in evaluation mode, without dropout, with an
    attention over one sequence at a time, and a language head whose weight is a parameter of its
    own (the examples of /repo untie it from the embedding).  Hidden states are functions of feature,
    position and number in the batch.  [Q j] is the [j]-th of [named_parameters()]: 0 wte, 1 wpe; for
    block k, from 2 + 12 k on: ln_1 weight and bias, attn.c_attn weight and bias, attn.c_proj weight
    and bias, ln_2 weight and bias, mlp.c_fc weight and bias, mlp.c_proj weight and bias; then ln_f
    weight and bias and lm_head weight.  This file does not speak of the model of /repo. *)
From Coq Require Import Reals.
From Verif Require Import RSum.
From Coq Require Import List ZArith.
Import ListNotations.
Local Close Scope Z_scope.
Local Open Scope R_scope.

Section Torch.
(** features, heads, features of a head, positions, inner features of the MLP, epsilon, activation *)
Variables (e nh h n inner : Z) (eps : R) (act : R -> R).
Definition tensor1 := list Z -> R.
Definition state := Z -> Z -> Z -> R.

(** torch.nn.LayerNorm over the features *)
Definition layer_norm (w b : tensor1) (x : state) : state := fun i s t =>
  let mean := Rsum e (fun k => x k s t) / IZR e in
  let var := Rsum e (fun k => (x k s t - mean) * (x k s t - mean)) / IZR e in
  (x i s t - mean) / sqrt (var + eps) * w [i] + b [i].
(** transformers' Conv1D: x @ weight + bias, weight [inputs; outputs] *)
Definition conv1d (inputs : Z) (w b : tensor1) (x : state) : state :=
  fun j s t => Rsum inputs (fun k => x k s t * w [k; j]) + b [j].
(** queries are the features 0..e-1 of c_attn's output, keys e..2e-1, values 2e..3e-1; head y has the
    features y*h .. y*h+h-1 of each; a query at position i sees the keys at positions j <= i *)
Definition score (a : state) (y i j t : Z) : R :=
  Rsum h (fun d => a (y * h + d)%Z i t * a (e + (y * h + d))%Z j t) / sqrt (IZR h).
Definition weight (a : state) (y i j t : Z) : R :=
  if (j <=? i)%Z then exp (score a y i j t) / Rsum n (fun k => if (k <=? i)%Z then exp (score a y i k t) else 0) else 0.
Definition heads (a : state) : state := fun c i t => Rsum n (fun j => weight a (c / h)%Z i j t * a (2 * e + c)%Z j t).
Definition attn (wqkv bqkv w b : tensor1) (x : state) : state := conv1d e w b (heads (conv1d e wqkv bqkv x)).
Definition mlp (wfc bfc w b : tensor1) (x : state) : state := conv1d inner w b (fun j s t => act (conv1d e wfc bfc x j s t)).

Section Params.
Variables (tokens : Z -> Z -> Z) (positions : Z -> Z) (Q : nat -> tensor1).
Definition torch_block (q : nat) (x : state) : state :=
  let x1 := fun i s t => x i s t + attn (Q (q + 2)%nat) (Q (q + 3)%nat) (Q (q + 4)%nat) (Q (q + 5)%nat) (layer_norm (Q q) (Q (q + 1)%nat) x) i s t in
  fun i s t => x1 i s t + mlp (Q (q + 8)%nat) (Q (q + 9)%nat) (Q (q + 10)%nat) (Q (q + 11)%nat) (layer_norm (Q (q + 6)%nat) (Q (q + 7)%nat) x1) i s t.
Fixpoint torch_states (k : nat) : state :=
  match k with O => fun i s t => Q 0%nat [tokens s t; i] + Q 1%nat [positions s; i] | S k => torch_block (2 + 12 * k) (torch_states k) end.
Definition torch_logits (layers : nat) : state :=
  let q := (2 + 12 * layers)%nat in
  fun v s t => Rsum e (fun k => layer_norm (Q q) (Q (q + 1)%nat) (torch_states layers) k s t * Q (q + 2)%nat [v; k]).
End Params.
End Torch.
