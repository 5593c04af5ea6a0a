(** * What the MLP-Mixer computes

    Arrays have three indices: channel (patch) c, sample t, feature p. *)
From Coq Require Import Reals.
From Verif Require Import Base Spec RSum TapeMath GptSpec PropDeriv ElemOps Formulas.
From Verif Require Import RealOps PySimple.
Local Close Scope Z_scope.
Local Open Scope R_scope.

Section Mixer.
(** C channels, E features, inner sizes JC and JE *)
Variables (C E JC JE : Z) (eps : R).
(** normalization along the features *)
Definition feature_norm (gamma beta : arr) (x : hidden) : hidden := fun c t p =>
  let mean := Rsum E (fun k => x c t k) / IZR E in
  let var := Rsum E (fun k => (x c t k - mean) * (x c t k - mean)) / IZR E in
  gamma [p] * ((x c t p - mean) / sqrt (var + eps)) + beta [p].
(** the MLP over the channels *)
Definition channel_mlp (w1 w2 : arr) (z : hidden) : hidden := fun c t p =>
  Rsum JC (fun j => w2 [c; j] * gelu (Rsum C (fun k => w1 [j; k] * z k t p))).
(** the MLP over the features *)
Definition feature_mlp (w1 w2 : arr) (z : hidden) : hidden := fun c t p =>
  Rsum JE (fun j => gelu (Rsum E (fun q => z c t q * w1 [q; j])) * w2 [j; p]).
Definition mixed1 (g1 b1 w11 w12 : arr) (x : hidden) : hidden := fun c t p => x c t p + channel_mlp w11 w12 (feature_norm g1 b1 x) c t p.
Definition mixed2 (g2 b2 w21 w22 : arr) (x : hidden) : hidden := fun c t p => x c t p + feature_mlp w21 w22 (feature_norm g2 b2 x) c t p.
(** one Mixer layer; parameters in the order of the Mixer object *)
Definition mixed (g1 b1 w11 w12 g2 b2 w21 w22 : arr) (x : hidden) : hidden := mixed2 g2 b2 w21 w22 (mixed1 g1 b1 w11 w12 x).
End Mixer.

(** The whole model: parameters [P j] in the order of the model's list; input [X] with Q features. *)
Section Model.
Variables (C B E Q : Z) (eps : R) (X : arr) (P : nat -> arr).
Definition embedded_patches : hidden := fun c t p => Rsum Q (fun q => X [c; t; q] * P 0%nat [q; p]).
Fixpoint mixer_states (k : nat) : hidden :=
  match k with
  | O => embedded_patches
  | S k => let p := (1 + 8 * k)%nat in
      mixed C E (4 * C) (4 * E) eps (P p) (P (p + 1)%nat) (P (p + 2)%nat) (P (p + 3)%nat) (P (p + 4)%nat) (P (p + 5)%nat) (P (p + 6)%nat) (P (p + 7)%nat) (mixer_states k)
  end.
(** the mean over the channels *)
Definition pooled (x : hidden) (t p : Z) : R := Rsum C (fun c => x c t p) / IZR C.
Definition mixer_logits (layers : nat) (v t : Z) : R :=
  Rsum E (fun p => P (1 + 8 * layers)%nat [v; p] * pooled (mixer_states layers) t p).
End Model.
(** the sum over the samples of (log sum exp of the logits - logit of the label) *)
Definition class_cross_entropy (B V : Z) (labels : Z -> Z) (y : Z -> Z -> R) : R :=
  Rsum B (fun t => ln (Rsum V (fun v => exp (y v t))) - y (labels t) t).
(** shapes of the parameters *)
Definition mixer_shapes (C E Q V : Z) (layers : nat) : list (list Z) :=
  [[Q; E]] ++ List.concat (repeat [[E]; [E]; [4 * C; C]; [C; 4 * C]; [E]; [E]; [E; 4 * E]; [4 * E; E]]%Z layers) ++ [[V; E]].
