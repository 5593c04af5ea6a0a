(** * Spec: the vocabulary of the property statements

    Independent of the model: column-major (Fortran order) geometry of dense
    arrays, and the decomposition of an array into tiles. *)

From Verif Require Import Base.

(** Number of elements of an array of the given shape. *)
Fixpoint prodZ (l : list Z) : Z :=
  match l with [] => 1 | x :: l' => x * prodZ l' end.

(** Column-major offset of a coordinate: i0 + s0*(i1 + s1*(i2 + ...)). *)
Fixpoint off (shape idx : list Z) : Z :=
  match shape, idx with
  | s :: shape', i :: idx' => i + s * off shape' idx'
  | _, _ => 0
  end.

(** The coordinate of an offset. *)
Fixpoint unoff (shape : list Z) (o : Z) : list Z :=
  match shape with
  | [] => []
  | s :: shape' => (o mod s) :: unoff shape' (o / s)
  end.

(** All extents are positive. *)
Definition pos (shape : list Z) : Prop := Forall (fun s => 0 < s) shape.

(** The coordinate lies in the array: as many coordinates as dimensions, and
    0 <= idx[i] < shape[i]. *)
Definition inb (shape idx : list Z) : Prop := Forall2 (fun s i => 0 <= i < s) shape idx.

Fixpoint map2 {A B C} (f : A -> B -> C) (l1 : list A) (l2 : list B) : list C :=
  match l1, l2 with
  | x :: l1', y :: l2' => f x y :: map2 f l1' l2'
  | _, _ => []
  end.

(** Tiles of an array: number of tiles per dimension, which tile an element is
    in, where in the tile it is, and the shape of a tile. *)
Definition gridZ (shape base : list Z) : list Z := map2 (fun s b => (s + b - 1) / b) shape base.
Definition tile_of (base idx : list Z) : list Z := map2 (fun b i => i / b) base idx.
Definition in_tile (base idx : list Z) : list Z := map2 (fun b i => i mod b) base idx.
Fixpoint tshape (shape base tidx : list Z) : list Z :=
  match shape, base, tidx with
  | s :: shape', b :: base', t :: tidx' => Z.min b (s - t * b) :: tshape shape' base' tidx'
  | _, _, _ => []
  end.

(** Global coordinate of element [e] of tile [tidx]. *)
Fixpoint glob (base tidx e : list Z) : list Z :=
  match base, tidx, e with
  | b :: base', t :: tidx', i :: e' => (t * b + i) :: glob base' tidx' e'
  | _, _, _ => []
  end.
