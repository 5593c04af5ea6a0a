(** * Construction of MlpMixer in Python

    The generate_simple functions of GAP, MixerMlp and Mixer (layer/mixer.py) and the constructor
    of MlpMixer (model/mlp_mixer.py), with the conventions of PyModels.  [b_layers] and [b_acts] of
    the build list the Linear, LayerNorm and Act objects made so far, also those inside of Mixer
    objects, and their outputs; the lists of the model are in [mobj]. *)
From Coq Require Import Reals.
From Verif Require Import Base Spec Geometry Traits Runtime Ops TensorSem Concrete Axis XReals MatOps HasRuns PyLayers PyMixer PyModels.
Local Close Scope R_scope.
Local Open Scope string_scope.
Local Open Scope list_scope.
Local Open Scope Z_scope.

(** A layer of the model: a Linear number [l]; a Mixer, whose eight layers (norm_1, linear_1, act and
    linear_2 of mlp_1, norm_2, linear_1, act and linear_2 of mlp_2) are numbered from [l]; a GAP. *)
Inductive mobj := OLayer (l : nat) (d : ldesc) | OMixer (l x : nat) (ds : list ldesc) | OGap (x y yT : nat).
(** activations_output: mixer.py:19 (GAP), 173 (Mixer; y is mlp_2.y: 206) *)
Definition obj_out (o : mobj) : nat :=
  match o with OLayer _ d => ld_out d | OMixer _ _ ds => last (map ld_out ds) O | OGap _ y _ => y end.
(** parameters: mixer.py:169 (norm_1, mlp_1, norm_2, mlp_2), 98; GAP has none (19) *)
Definition obj_params (o : mobj) : list nat :=
  match o with OLayer _ d => ld_params d | OMixer _ _ ds => flat_map ld_params ds | OGap _ _ _ => [] end.
(** temporaries: mixer.py:170 and 97 (the outputs of the eight layers), GAP: yT; those of Linear are None *)
Definition obj_temps (o : mobj) : list nat :=
  match o with OLayer _ _ => [] | OMixer _ _ ds => map ld_out ds | OGap _ _ yT => [yT] end.

(** mixer.py:119-134 *)
Definition gen_mixer_mlp (x : nat) (sd : side) (b : build) : res build :=
  let d := match sd with SideR => zn (bshape b x) 0 | SideL => last (bshape b x) 0 end in
  b <- push (gen_linear x sd NoTrans 1 [d * 4] [d * 4] false b) ;;
  b <- push (gen_act (act b 1) Gelu b) ;;
  push (gen_linear (act b 1) sd NoTrans 1 [d] [d] false b).
(** mixer.py:197: eps = 1e-5 *)
Definition mixer_eps : R := (/ 100000)%R.
(** mixer.py:196-208 *)
Definition gen_mixer (x : nat) (b : build) : res (mobj * build) :=
  let l := lid b in
  b <- push (gen_layer_norm x 2 mixer_eps b) ;;
  b <- gen_mixer_mlp (act b 1) SideR b ;;
  b <- push (gen_layer_norm (act b 1) 2 mixer_eps b) ;;
  b <- gen_mixer_mlp (act b 1) SideL b ;;
  Ok (OMixer l x (skipn l (b_layers b)), b).
(** mixer.py:27-58 *)
Definition gen_gap (x : nat) (b : build) : res (mobj * build) :=
  let sh := sl_from 1 (bshape b x) in let ba := sl_from 1 (bbase b x) in
  '(yT, b) <- moments_new sh ba zeros b ;;
  '(y, b) <- moments_new (rev sh) (rev ba) zeros b ;;
  Ok (OGap x y yT, b).

(** activations[-1] *)
Definition last_out (os : list mobj) : nat := last (O :: map obj_out os) O.
(** mlp_mixer.py:46-49 *)
Fixpoint add_mixers (n : nat) (os : list mobj) (b : build) : res (list mobj * build) :=
  match n with
  | O => Ok (os, b)
  | S n => '(m, b) <- gen_mixer (last_out os) b ;; add_mixers n (os ++ [m]) b
  end.
(** a Linear layer of the model *)
Definition model_linear (x : nat) (sd : side) (k : Z) (b : build) : res (mobj * build) :=
  let l := lid b in
  b <- push (gen_linear x sd NoTrans 1 [k] [k] false b) ;; Ok (OLayer l (last (b_layers b) (LAct Gelu O O)), b).
(** mlp_mixer.py:26-63.  [x]: the value of the input, which has no gradient; [next]: first free handle. *)
Definition mlp_mixer (x : tensor) (embed : Z) (layers : nat) (classes : Z) (next : Z) : res (list mobj * build) :=
  throw_if (Z.of_nat layers <? 1) "nlayers must be at least 1" (
  let b := input_build x None next in
  '(o, b) <- model_linear O SideL embed b ;;
  '(os, b) <- add_mixers layers [o] b ;;
  '(o, b) <- gen_gap (last_out os) b ;;
  let os := os ++ [o] in
  '(o, b) <- model_linear (last_out os) SideR classes b ;;
  Ok (os ++ [o], b)).

(** ** Methods *)
Section Methods.
Variables (req : nat -> bool) (b : build).
Definition obj_py (o : mobj) : pylayer XR :=
  match o with
  | OLayer l d => ld_py req b l d
  | OMixer l x [n1; l1; a1; m1; n2; l2; a2; m2] =>
      mixer (ld_py req b l n1) (mixer_mlp (ld_py req b (l + 1) l1) (ld_py req b (l + 2) a1) (ld_py req b (l + 3) m1))
            (ld_py req b (l + 4) n2) (mixer_mlp (ld_py req b (l + 5) l2) (ld_py req b (l + 6) a2) (ld_py req b (l + 7) m2))
            (bmom req b x) (bmom req b (ld_out m1)) (bmom req b (ld_out m2))
  | OMixer _ _ _ => {| pl_forward := Throw "AttributeError"; pl_backward := Throw "AttributeError" |}
  | OGap x y yT => gap (bmom req b x) (bmom req b y) (bmom req b yT)
  end.
Variable os : list mobj.
(** self.activations, self.parameters; mlp_mixer.py:75-84; base_model.py *)
Definition mm_acts : list nat := O :: map obj_out os.
Definition mm_params : list nat := flat_map obj_params os.
Definition mm_forward : res (list (task XR)) := model_forward (map obj_py os).
Definition mm_backward : res (list (task XR)) := model_backward (map obj_py os).
Definition mm_clear_activations : res (list (task XR)) := clear_grads (map (bmom req b) (mm_acts ++ flat_map obj_temps os)).
End Methods.
