(** * The function torch's MLP-Mixer computes

    Mathematics only: the class MlpMixer of /repo/wrappers/python/nntile/torch_models/mlp_mixer.py on
    an input [patches; samples; pixels].  [W j] is the [j]-th of [parameters()]: 0 the first Linear;
    for Mixer k, from 1 + 8 k on: norm_1 weight and bias, mlp_1 first and second weight, norm_2 weight
    and bias, mlp_2 first and second weight; then the classifier's weight.  This file does not speak
    of the model of /repo. *)
From Coq Require Import Reals List ZArith.
From Verif Require Import RSum.
Import ListNotations.
Local Close Scope Z_scope.
Local Open Scope R_scope.

Section Torch.
(** patches, features, pixels of a patch, epsilon, activation *)
Variables (C E Q : Z) (eps : R) (act : R -> R).
Definition tensor1 := list Z -> R.
Definition state := Z -> Z -> Z -> R.
(** torch.nn.Linear without bias, on the last axis: weight [outputs; inputs] *)
Definition linear (inputs : Z) (w : tensor1) (x : state) : state := fun c t j => Rsum inputs (fun k => x c t k * w [j; k]).
(** torch.transpose(x, 0, 2) *)
Definition swap (x : state) : state := fun a t b => x b t a.
(** torch.nn.LayerNorm over the last axis *)
Definition layer_norm (w b : tensor1) (x : state) : state := fun c t p =>
  let mean := Rsum E (fun k => x c t k) / IZR E in
  let var := Rsum E (fun k => (x c t k - mean) * (x c t k - mean)) / IZR E in
  (x c t p - mean) / sqrt (var + eps) * w [p] + b [p].
(** MixerMlp of side 'L'; side 'R' swaps before and after *)
Definition mixer_mlp (dim : Z) (w1 w2 : tensor1) (x : state) : state := linear (4 * dim) w2 (fun c t j => act (linear dim w1 x c t j)).

Section Params.
Variables (X : tensor1) (W : nat -> tensor1).
Definition torch_mixer (q : nat) (x : state) : state :=
  let y := fun c t p => swap (mixer_mlp C (W (q + 2)%nat) (W (q + 3)%nat) (swap (layer_norm (W q) (W (q + 1)%nat) x))) c t p + x c t p in
  fun c t p => mixer_mlp E (W (q + 6)%nat) (W (q + 7)%nat) (layer_norm (W (q + 4)%nat) (W (q + 5)%nat) y) c t p + y c t p.
Fixpoint torch_mixer_states (k : nat) : state :=
  match k with O => linear Q (W 0%nat) (fun c t q => X [c; t; q]) | S k => torch_mixer (1 + 8 * k) (torch_mixer_states k) end.
(** mean over the patches, then the classifier *)
Definition torch_mixer_logits (layers : nat) (v t : Z) : R :=
  Rsum E (fun p => Rsum C (fun c => torch_mixer_states layers c t p) / IZR C * W (1 + 8 * layers)%nat [v; p]).
End Params.
End Torch.
