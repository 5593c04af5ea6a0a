(** * What DeepReLU computes

    [K]: dimensions of the features, summed over; the samples have any number of dimensions too.
    On side L the features are the last axes of an array and the weights act from the right, on side
    R they are the first axes and the weights act from the left. *)
From Coq Require Import Reals.
From Verif Require Import Base Spec RSum MatOps TapeMath PyLayers.
Local Close Scope Z_scope.
Local Open Scope list_scope.
Local Open Scope R_scope.

Section Relu.
Variables (sd : side) (din : list Z) (add : Z) (bias : bool).
(** entry of sample [t], feature [k]; entry of the weights from feature [k] to [i] *)
Definition at_ (X : arr) (t k : list Z) : R := X (match sd with SideL => t ++ k | SideR => k ++ t end).
Definition weight (W : arr) (k : list Z) (i : Z) : R := W (match sd with SideL => k ++ [i] | SideR => i :: k end).
(** features going into layer [k] *)
Definition features (k : nat) : list Z := match k with O => din | S _ => [add] end.
(** the parameters of layer [k] are number [k], or numbers [2k] (weights) and [2k+1] (bias) *)
Definition W_of (k : nat) : nat := (if bias then 2 * k else k)%nat.
Section Values.
Variables (X : arr) (P : nat -> arr).
(** layer [k] applied to [h] *)
Definition affine (k : nat) (h : list Z -> list Z -> R) (t : list Z) (i : Z) : R :=
  Rsuml (all_idx (features k)) (fun f => h t f * weight (P (W_of k)) f i) + (if bias then P (S (W_of k)) [i] else 0).
(** values before and after the k-th rectifier *)
Fixpoint hidden_of (k : nat) : list Z -> list Z -> R :=
  match k with
  | O => at_ X
  | S k => fun t f => Rmax (affine k (hidden_of k) t (List.hd 0%Z f)) 0
  end.
Definition preact (k : nat) (t : list Z) (i : Z) : R := affine k (hidden_of k) t i.
End Values.
(** shapes of the parameters of [n] rectified layers and the head with V outputs *)
Definition relu_shapes (n : nat) (V : Z) : list (list Z) :=
  flat_map (fun k => let o := if (k =? n)%nat then V else add in
    (match sd with SideL => features k ++ [o] | SideR => o :: features k end) :: (if bias then [[o]] else [])) (seq 0 (S n)).
End Relu.
