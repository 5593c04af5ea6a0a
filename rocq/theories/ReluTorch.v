(** * Parameters of a torch MLP: deep_relu.py, DeepReLU.from_torch *)
From Coq Require Import String Reals.
From Verif Require Import Base Spec Geometry Traits Runtime Ops TensorSem Sequence RSum TapeMath PyLayers PyModels NumpyIO Checkpoint PropCheckpoint GptTorch MixTorch.
Import ListNotations.
Local Close Scope R_scope.
Local Open Scope string_scope.
Local Open Scope list_scope.
Local Open Scope Z_scope.

(** deep_relu.py:88-93: are there biases, and how many layers are there *)
Definition mlp_layers {X} (ps : list (narr X)) : res (bool * nat) :=
  match nth_error ps 1 with
  | None => Throw "IndexError: list index out of range"
  | Some p =>
      if zlen (n_shape p) =? 2 then Ok (false, List.length ps)
      else if zlen (n_shape p) =? 1 then Ok (true, (List.length ps / 2)%nat)
      else Throw "UnboundLocalError: n_layers"
  end.
(** deep_relu.py:86-112: the input and the model that are made; [next]: first free handle.
    With another nonlinearity the method returns None and its caller's unpacking raises *)
Definition relu_of_torch {X} (ps : list (narr X)) (batch n_classes : Z) (nonlinearity : string) (next : Z) : res (tensor * build) :=
  '(bias, n) <- mlp_layers ps ;;
  match ps with
  | [] => Throw "IndexError: list index out of range"
  | p0 :: _ =>
      d <- dim 1 p0 ;; h <- dim 0 p0 ;;
      '(x, b) <- mk_tensor [d; batch] [d; batch] (fun _ => [0]) (mkB (fun _ => None) next 0 [] []) ;;
      if String.eqb nonlinearity "relu" then
        b <- deep_relu SideR 1 h h n n_classes bias (input_build x None (b_next b)) ;;
        Ok (x, b)
      else Throw "TypeError: cannot unpack non-iterable NoneType object"
  end.
Section Load.
Context {T : Type} {O : Ops T}.
(** deep_relu.py:113-115: [ts] are the values of model.parameters; zip stops at the end of the
    shorter list.  SIMPLIFIED as GptTorch.from_torch *)
Definition relu_load {X} (ps : list (narr X)) (mem : nat -> handle) (q : nat -> slot) (ts : list tensor) : res (list (task T)) :=
  loads false q (map (fun x => (Numpy, x)) (firstn (List.length ts) (in_memory mem ps))) (firstn (List.length ps) ts).
End Load.

(** ** Specification: torch's nn.Sequential of Linear and ReLU
    Layer k of [n] hidden layers and a head maps the rows of its input; parameters() lists for each
    layer its weights [outputs; inputs] and, if there are any, its biases. *)
Section TorchMlp.
Variables (D H : Z) (bias : bool).
Definition torch_mlp_shapes (n : nat) (V : Z) : list (list Z) :=
  flat_map (fun k => let i := if (k =? 0)%nat then D else H in let o := if (k =? n)%nat then V else H in
    [o; i] :: (if bias then [[o]] else [])) (seq 0 (S n)).
Local Open Scope R_scope.
(** nn.Linear on one row [h] of [n] features *)
Definition nn_linear (n : Z) (weight : list Z -> R) (b : option (list Z -> R)) (h : Z -> R) (i : Z) : R :=
  Rsum n (fun k => h k * weight [i; k]) + match b with Some b => b [i] | None => 0 end.
(** [X [k; t]]: feature k of row t.  What Linear number k gives for it *)
Fixpoint torch_mlp (X : list Z -> R) (W : nat -> list Z -> R) (k : nat) (t : Z) : Z -> R :=
  let weight := W (if bias then 2 * k else k)%nat in
  let b := if bias then Some (W (2 * k + 1)%nat) else None in
  match k with
  | O => nn_linear D weight b (fun j => X [j; t])
  | S k => nn_linear H weight b (fun j => Rmax 0 (torch_mlp X W k t j))
  end.
End TorchMlp.
(** CrossEntropyLoss(reduction='sum') of the rows' logits [y t v] *)
Definition rows_cross_entropy (B V : Z) (lab : Z -> Z) (y : Z -> Z -> R) : R :=
  Rsum B (fun t => - ln (exp (y t (lab t)) / Rsum V (fun v => exp (y t v))))%R.
