(** * Exchange of parameters with torch's MLP-Mixer: mlp_mixer.py, MlpMixer.from_torch and to_torch *)
From Coq Require Import String.
From Verif Require Import Base Spec Geometry Traits Runtime Ops TensorSem Sequence PyModels PyMixModels NumpyIO Checkpoint PropCheckpoint GptTorch.
Import ListNotations.
Local Open Scope string_scope.
Local Open Scope list_scope.
Local Open Scope Z_scope.

Section Convert.
Context {X : Type}.
(** p.shape[k] *)
Definition dim (k : nat) (a : narr X) : res Z :=
  match nth_error (n_shape a) k with Some d => Ok d | None => Throw "IndexError: tuple index out of range" end.
(** mlp_mixer.py:103: int((len(parameters) - 2) / 8) *)
Definition mixer_layers (ps : list (narr X)) : nat := Z.to_nat (Z.quot (zlen ps - 2) 8).
(** mlp_mixer.py:104-109: hidden_layer_dim, n_pixels, n_patches *)
Definition mixer_dims (ps : list (narr X)) : res (Z * Z * Z) :=
  match ps with
  | [] => Throw "UnboundLocalError: n_patches"
  | p0 :: _ =>
      e <- dim 0 p0 ;; q <- dim 1 p0 ;;
      match nth_error ps 3 with Some p3 => c <- dim 1 p3 ;; Ok (e, q, c) | None => Throw "UnboundLocalError: n_patches" end
  end.
(** mlp_mixer.py:102-121: the input and the model that are made; [next]: first free handle *)
Definition mixer_of_torch (ps : list (narr X)) (batch classes next : Z) : res (tensor * list mobj * build) :=
  '(e, q, c) <- mixer_dims ps ;;
  '(x, b) <- mk_tensor [c; batch; q] [c; batch; q] (fun _ => [0]) (mkB (fun _ => None) next 0 [] []) ;;
  '(os, b) <- mlp_mixer x e (mixer_layers ps) classes (b_next b) ;;
  Ok (x, os, b).

(** mlp_mixer.py:123-126: the array for from_array of a parameter of shape [sh] *)
Definition mixer_array (sh : list Z) (a : narr X) : res (narr X) :=
  match sh, n_shape a with
  | s :: _, r :: _ => Ok (if negb (s =? r) then transpose a else a)
  | _, _ => Throw "IndexError: list index out of range"
  end.
(** mlp_mixer.py:122: zip stops at the end of the shorter list *)
Fixpoint mixer_arrays (shs : list (list Z)) (ps : list (narr X)) : res (list (narr X)) :=
  match shs, ps with
  | sh :: shs, a :: ps => x <- mixer_array sh a ;; r <- mixer_arrays shs ps ;; Ok (x :: r)
  | _, _ => Ok []
  end.
(** mlp_mixer.py:132-140: [v], the value of NNTile's parameter, is copied into torch's [a]; SIMPLIFIED:
    copy_ raises if the shapes differ, broadcasting is not modelled *)
Definition mixer_back (v a : narr X) : res (narr X) :=
  match n_shape v, n_shape a with
  | s :: _, r :: _ =>
      let c := if negb (s =? r) then transpose v else v in
      throw_if (negb (same_shape c a)) "RuntimeError: the size of tensor a must match" (Ok c)
  | _, _ => Throw "IndexError: list index out of range"
  end.
(** mlp_mixer.py:130-140: the parameters of the torch model afterwards *)
Fixpoint mixer_to_torch (ps vs : list (narr X)) : res (list (narr X)) :=
  match vs, ps with
  | v :: vs, a :: ps => c <- mixer_back v a ;; r <- mixer_to_torch ps vs ;; Ok (c :: r)
  | _, _ => Ok ps
  end.
End Convert.

Section Load.
Context {T : Type} {O : Ops T}.
(** mlp_mixer.py:122-126; [ts] are the values of the parameters of the model that was just made.
    SIMPLIFIED as GptTorch.from_torch. to_torch reads the values with [read_parameters] *)
Definition mixer_load {X} (ps : list (narr X)) (mem : nat -> handle) (q : nat -> slot) (ts : list tensor) : res (list (task T)) :=
  as_ <- mixer_arrays (map t_shape ts) ps ;;
  loads false q (map (fun x => (Numpy, x)) (in_memory mem as_)) ts.
End Load.

(** ** Environment: parameters() of the torch model *)
Definition torch_mixer_shapes (C E Q V : Z) (layers : nat) : list (list Z) :=
  [[E; Q]] ++ List.concat (repeat [[E]; [E]; [4 * C; C]; [C; 4 * C]; [E]; [E]; [4 * E; E]; [E; 4 * E]] layers) ++ [[V; E]].
Definition parameters_of {X} (shapes : list (list Z)) (W : nat -> list Z -> X) : list (narr X) :=
  map (fun '(j, sh) => mkN sh (W j)) (combine (seq 0 (List.length shapes)) shapes).
