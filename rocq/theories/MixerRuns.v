(** * The layers GAP and Mixer as pieces of a model *)
From Coq Require Import Reals Lra FunctionalExtensionality.
From Coquelicot Require Import Coquelicot.
From Verif Require Import Base Spec Geometry Traits TraitsProofs Runtime Ops RealOps TensorSem OneOut ElemOps Axis SliceOps SliceGeo PropElem MatOps MatProofs XReals RSum Sequence NdRuns PropDeriv AttnSpec PropMat XTriples HasRuns HasRuns2 TapeMath VjpMath Tape PyLayers PyLinear PySimple PyNorm Backprop PropLayers PropModel Segments PyMixer.
Local Close Scope Z_scope.
Local Open Scope R_scope.
Notation lms ls := (map ly_m ls).
Notation ids ls := (map ly_id ls).

Section Mix.
Context {E : env} (req : nat -> bool).
Implicit Types (M : smap) (s : store XR) (G vs : nat -> arr).
Notation st := (st req).
Notation node_ok := (node_ok req).

(** ** Global average pooling *)
Record gap_ok (x y yT : nat) (c b e bc bb be : Z) : Prop := {
  go_x : node_ok x; go_y : node_ok y; go_yT : node_ok yT;
  go_req : req x = true /\ req y = true /\ req yT = true;
  go_ne : x <> y /\ x <> yT /\ y <> yT;
  go_sx : vshape x = [c; b; e] /\ vbase x = [bc; bb; be];
  go_syT : vshape yT = [b; e] /\ vbase yT = [bb; be];
  go_sy : vshape y = [e; b] /\ vbase y = [be; bb]
}.
(** yT\[t, p\] = 1/c sum_k x\[k, t, p\] *)
Definition mean_layer (x yT id : nat) (c : Z) : layer := {|
  ly_m := {| ml_ins := [x]; ml_out := yT; ml_F := fun vs idx => / IZR c * Rsum c (fun k => vs 0%nat (k :: idx)); ml_D := fun _ => True;
             ml_dl := fun _ gy _ idx => / IZR c * gy (tl idx) |};
  ly_id := id; ly_py := {| pl_forward := Ok []; pl_backward := Ok [] |}; ly_saved := fun _ _ => True |}.
(** y\[p, t\] = yT\[t, p\] *)
Definition flip (l : list Z) : list Z := match l with [i; j] => [j; i] | _ => l end.
Definition tr_layer (yT y id : nat) : layer := {|
  ly_m := {| ml_ins := [yT]; ml_out := y; ml_F := fun vs idx => vs 0%nat (flip idx); ml_D := fun _ => True;
             ml_dl := fun _ gy _ idx => gy (flip idx) |};
  ly_id := id; ly_py := {| pl_forward := Ok []; pl_backward := Ok [] |}; ly_saved := fun _ _ => True |}.
Definition gap_segment (x y yT id1 id2 : nat) (c : Z) : segment := {|
  sg_layers := [mean_layer x yT id1 c; tr_layer yT y id2]; sg_zero := [x; yT];
  sg_py := gap (node req x) (node req y) (node req yT) |}.

Lemma inv_x (c : Z) : (0 < c)%Z -> o_div (o_one : XR) (o_ofZ c) = Fin (/ IZR c).
Proof. intros H. pose proof (IZR_lt _ _ H). cbn [o_div o_one o_ofZ Xops]. rewrite x_div_fin by lra. f_equal. lra. Qed.

Lemma mean_vjp x yT id c sh : vshape x = c :: sh -> vshape yT = sh -> pos (c :: sh) -> vjp vshape (ly_m (mean_layer x yT id c)).
Proof.
  intros E1 E2 Hp. intros cu cu' t0 _ Hc. cbn [ly_m mean_layer ml_ins ml_out ml_F ml_dl arity List.length] in *.
  assert (Hc0 : forall k i, (0 <= k < c)%Z -> inb sh i -> is_derive (fun t => cu t 0%nat (k :: i)) t0 (cu' 0%nat (k :: i))).
  { intros k i Hk Hi. apply Hc; [cbn; lia|]. unfold inp. cbn. rewrite E1. constructor; assumption. }
  exists (fun i => / IZR c * Rsum c (fun k => cu' 0%nat (k :: i))). split.
  - intros i Hi. rewrite E2 in Hi. apply is_derive_scal. apply (is_derive_Rsuml (zrange c) (fun k t => cu t 0%nat (k :: i))). intros k Hk. apply Hc0; [|assumption].
    apply zrange_In in Hk. assumption.
  - intros gy. transitivity (dot (vshape x) (fun idx => / IZR c * gy (tl idx)) (cu' 0%nat)).
    + rewrite E1, E2. unfold dot at 2. rewrite Rsuml_all_cons by assumption. unfold dot. apply Rsuml_ext. intros i _. cbn [tl]. unfold Rsum. rewrite Rsuml_scal. ring.
    + unfold Nsum. change (seq 0 1) with [0%nat]. rewrite Rsuml_cons, Rsuml_nil, Rplus_0_r. reflexivity.
Qed.
Lemma flip_flip l : flip (flip l) = l.
Proof. destruct l as [|? [|? [|]]]; reflexivity. Qed.
Lemma inb_flip a b l : inb [a; b] l -> inb [b; a] (flip l).
Proof.
  intros H. inversion H as [|? k ? r H1 H2]; subst. inversion H2 as [|? k2 ? r2 H3 H4]; subst. inversion H4; subst. constructor; [assumption|]. constructor; [assumption|constructor].
Qed.
Lemma tr_vjp yT y id b e : vshape yT = [b; e] -> vshape y = [e; b] -> pos [b; e] -> vjp vshape (ly_m (tr_layer yT y id)).
Proof.
  intros E1 E2 Hp. apply tv_vjp. cbn [arity ly_m tr_layer ml_ins ml_out ml_F ml_dl ml_D List.length]. unfold inp. cbn [nth]. rewrite E2.
  assert (Hp' : pos [e; b]) by (unfold pos in *; inversion Hp as [|? ? P1 P2]; inversion P2; repeat constructor; assumption).
  eapply tv_ext; [| | |apply (tv_gather 1 (fun j => vshape (nth j [yT] 0%nat)) [e; b] (fun _ => True) 0 flip)].
  - intros [|j] Hj; [|lia]. cbn. rewrite E1. assumption.
  - reflexivity.
  - intros vs gy [|j] idx _ Hj Hi; [|lia]. unfold sel. change (inb (vshape yT) idx) in Hi. rewrite E1 in Hi. destruct (Nat.eq_dec 0 0); [|congruence].
    unfold pre. rewrite <- (dot_delta [e; b] gy (flip idx) Hp').
    + unfold dot. apply Rsuml_ext. intros i _. destruct (list_eq_dec Z.eq_dec (flip i) idx) as [<-|Hn]; destruct (list_eq_dec Z.eq_dec i _) as [Hi'|Hi']; try ring; exfalso.
      * apply Hi'. rewrite flip_flip. reflexivity.
      * apply Hn. rewrite Hi'. apply flip_flip.
    + apply inb_flip. assumption.
  - lia.
  - cbn. rewrite E1. assumption.
  - assumption.
  - intros i Hi. change (inb (vshape yT) (flip i)). rewrite E1. apply inb_flip. assumption.
Qed.

Lemma acc1 (l : mlayer) x vs G n idx : ml_ins l = [x] -> acc l vs G n idx = G n idx + (if Nat.eq_dec x n then ml_dl l vs (G (ml_out l)) 0%nat idx else 0).
Proof. intros H. unfold acc, contrib, Nsum, arity, inp. rewrite H. change (seq 0 (List.length [x])) with [0%nat]. rewrite Rsuml_cons, Rsuml_nil. cbn [nth]. ring. Qed.
Lemma acc2 (l : mlayer) x1 x2 vs G n idx : ml_ins l = [x1; x2] -> acc l vs G n idx = G n idx + ((if Nat.eq_dec x1 n then ml_dl l vs (G (ml_out l)) 0%nat idx else 0) + (if Nat.eq_dec x2 n then ml_dl l vs (G (ml_out l)) 1%nat idx else 0)).
Proof. intros H. unfold acc, contrib, Nsum, arity, inp. rewrite H. change (seq 0 (List.length [x1; x2])) with [0; 1]%nat. rewrite !Rsuml_cons, Rsuml_nil. cbn [nth]. ring. Qed.
Lemma acc3 (l : mlayer) x1 x2 x3 vs G n idx : ml_ins l = [x1; x2; x3] -> acc l vs G n idx = G n idx + ((if Nat.eq_dec x1 n then ml_dl l vs (G (ml_out l)) 0%nat idx else 0) + (if Nat.eq_dec x2 n then ml_dl l vs (G (ml_out l)) 1%nat idx else 0) + (if Nat.eq_dec x3 n then ml_dl l vs (G (ml_out l)) 2%nat idx else 0)).
Proof. intros H. unfold acc, contrib, Nsum, arity, inp. rewrite H. change (seq 0 (List.length [x1; x2; x3])) with [0; 1; 2]%nat. rewrite !Rsuml_cons, Rsuml_nil. cbn [nth]. ring. Qed.
Lemma gap_good x y yT id1 id2 c b e bc bb be : gap_ok x y yT c b e bc bb be -> segment_good req (gap_segment x y yT id1 id2 c).
Proof.
  intros [[Ux Nx] [Uy Ny] [Ut Nt] (Rx & Ry & Rt) (N1 & N2 & N3) [Sx Bx] [St Bt] [Sy By]].
  destruct (Nx Rx) as [Ugx [Tgx Tgx']]. destruct (Ny Ry) as [Ugy [Tgy Tgy']]. destruct (Nt Rt) as [Ugt [Tgt Tgt']].
  assert (Px : pos [c; b; e]) by (rewrite <- Sx; apply wf_ps, wf_wft, UW; assumption).
  assert (Hc : (0 < c)%Z) by (inversion Px; assumption).
  assert (Pt : pos [b; e]) by (inversion Px; assumption).
  unfold vshape, vbase in Sx, Bx, St, Bt, Sy, By.
  assert (Hm : slice_match (A (Val x)) (A (Val yT)) 0) by (unfold slice_match; rewrite Sx, Bx, St, Bt; cbn; repeat split; reflexivity || lia).
  assert (Ht : transpose_match (A (Val yT)) (A (Val y)) 1) by (unfold transpose_match; rewrite Sy, By, St, Bt; cbn; repeat split; reflexivity || lia).
  assert (Hm' : slice_match (A (Grad x)) (A (Grad yT)) 0) by (unfold slice_match; rewrite Tgx, Tgx', Tgt, Tgt', Sx, Bx, St, Bt; cbn; repeat split; reflexivity || lia).
  assert (Ht' : transpose_match (A (Grad y)) (A (Grad yT)) 1) by (unfold transpose_match; rewrite Tgy, Tgy', Tgt, Tgt', Sy, By, St, Bt; cbn; repeat split; reflexivity || lia).
  split; [repeat constructor; intros ? ? ? _ _; exact I|]. split; [|split].
  - constructor; [apply (mean_vjp x yT id1 c [b; e]); assumption|]. constructor; [|constructor]. apply (tr_vjp yT y id2 b e); assumption.
  - intros e0 ns M G s HO _ Hs Hk. cbn [sg_layers gap_segment sg_py gap pl_forward]. unfold gap_forward. cbn [node m_val]. rewrite Sx. change (zn [c; b; e] 0) with c. rewrite inv_x by assumption.
    destruct HO as (O1 & O2 & O3 & O4 & _). cbn in O1, O2, O3, O4.
    assert (Ex : M (Val x) = Some (fin (e0 x))) by (apply Hk, (O1 0%nat); lia).
    set (m := fun idx => / IZR c * Rsum c (fun k => e0 x (k :: idx))).
    eapply py_val; [apply (h_sum_slice (/ IZR c) 0 _ s (Val x) (Val yT) 0 (e0 x) (fun _ => 0) m Hs Ux Ut)|].
    { congruence. } { assumption. } { exact Ex. } { left; reflexivity. }
    { intros idx Hi. rewrite Sx. change (zn [c; b; e] 0) with c. unfold m. rewrite Rmult_0_l, Rplus_0_l. reflexivity. }
    intros s1 H1. eapply py_val; [apply (h_transpose _ s1 (Val yT) (Val y) 1 m (fun idx => m (flip idx)) H1 Ut Uy)|].
    { congruence. } { assumption. } { apply upd_eq. }
    { intros idx Hi. rewrite St in Hi. inversion Hi as [|? k ? r H2 H3]; subst. inversion H3 as [|? k2 ? r2 H4 H5]; subst. inversion H5; subst. reflexivity. }
    intros s2 H2. apply py_nil. eexists. split; [exact H2|]. cbn [lms map sg_layers gap_segment outs mean_layer tr_layer ly_m ml_out app] in *.
    assert (Eyt : fire (ly_m (mean_layer x yT id1 c)) e0 yT = m) by (unfold fire; cbn; destruct (Nat.eq_dec yT yT); [reflexivity|congruence]).
    split; [|split; [|split]].
    + intros k Hk'. cbn [eval]. unfold fire at 1. cbn [ml_out ly_m tr_layer mean_layer]. destruct (Nat.eq_dec k y) as [->|Hky].
      * rewrite upd_eq. f_equal.
        change (fin (fun idx => m (flip idx)) = fin (fun idx => (fire (ly_m (mean_layer x yT id1 c)) e0 yT) (flip idx))). rewrite Eyt. reflexivity.
      * rewrite upd_ne by congruence. destruct (Nat.eq_dec k yT) as [->|Hkt].
        -- rewrite upd_eq. f_equal. f_equal. symmetry. exact Eyt.
        -- rewrite upd_ne by congruence. unfold fire. cbn. destruct (Nat.eq_dec k yT); [congruence|]. apply Hk. destruct Hk' as [|[|]]; congruence || assumption.
    + split; [|split; [exact I|split; [|split; [exact I|exact I]]]].
      * intros j Hj. cbn in Hj. assert (j = 0)%nat as -> by lia. unfold inp, args. cbn. rewrite !upd_ne by congruence. assumption.
      * intros j Hj. cbn in Hj. assert (j = 0)%nat as -> by lia. change (upd (Val y) (Some (fin (fun idx => m (flip idx)))) (upd (Val yT) (Some (fin m)) M) (Val yT) = Some (fin (fire (ly_m (mean_layer x yT id1 c)) e0 yT))). rewrite upd_ne by congruence. rewrite upd_eq, Eyt. reflexivity.
    + intros k Hk'. cbn in Hk'. rewrite !upd_ne by (intros C; inversion C; subst; tauto). reflexivity.
    + intros k i _. rewrite !upd_ne by discriminate. reflexivity.
  - intros e0 M G s _ Hs _ Hz. cbn [sg_layers gap_segment sg_py gap pl_backward sg_zero] in *. unfold gap_backward. cbn [node m_val m_grad]. rewrite Sx. change (zn [c; b; e] 0) with c. rewrite inv_x by assumption.
    assert (Zx : G x = fun _ => 0) by (apply Hz; left; reflexivity). assert (Zt : G yT = fun _ => 0) by (apply Hz; right; left; reflexivity).
    eapply (py_grad_always req M G s yT (fun idx => G y (flip idx))); [assumption| |].
    { apply (h_transpose _ s (Grad y) (Grad yT) 1 (G y) (fun idx => G yT idx + G y (flip idx)) Hs Ugy Ugt); [congruence|assumption|cbn; rewrite Ry; reflexivity|].
      intros idx Hi. rewrite Tgy, Sy in Hi. inversion Hi as [|? k ? r H2 H3]; subst. inversion H3 as [|? k2 ? r2 H4 H5]; subst. inversion H5; subst. rewrite Zt. change (rot 1 [k; k2]) with [k2; k]. cbn [flip]. symmetry. apply Rplus_0_l. }
    intros s1 H1. set (G1 := addg yT (fun idx => G y (flip idx)) G) in *.
    assert (Zx1 : G1 x = fun _ => 0). { unfold G1, addg. apply functional_extensionality. intros idx. destruct (Nat.eq_dec yT x); [congruence|]. rewrite Zx. ring. }
    eapply (py_grad_always req M G1 s1 x (fun idx => / IZR c * G1 yT (tl idx))); [assumption| |].
    { apply (h_add_slice (/ IZR c) 0 _ s1 (Grad yT) (Grad x) 0 (G1 yT) (G1 x) (fun idx => G1 x idx + / IZR c * G1 yT (tl idx)) H1 Ugt Ugx); [congruence|assumption|cbn; rewrite Rt; reflexivity|cbn; rewrite Rx; reflexivity|].
      intros idx Hi. rewrite Tgx, Sx in Hi. inversion Hi as [|? k ? r H2 H3]; subst. change (del 0 (k :: r)) with r. cbn [tl]. rewrite Zx1. ring. }
    intros s2 H2. apply py_nil. eexists _, _. split; [exact H2|]. split; [|split; reflexivity].
    intros k idx Hk. cbn in Hk. cbn [map back]. rewrite (acc1 _ x) by reflexivity. rewrite !(acc1 _ yT) by reflexivity. cbn [ml_out ml_dl ly_m mean_layer tr_layer]. unfold addg at 1. unfold G1 at 1. unfold addg at 1.
    destruct (Nat.eq_dec yT k); [exfalso; apply Hk; left; assumption|]. rewrite !Rplus_0_r. f_equal. destruct (Nat.eq_dec x k); [|reflexivity]. f_equal. unfold G1, addg. rewrite (acc1 _ yT) by reflexivity. reflexivity.
Qed.

(** ** Half of a Mixer: y = x + Linear (gelu (Linear (LayerNorm x))) *)
Record half := { h_x : nat; h_n : nat; h_g : nat; h_be : nat; h_w1 : nat; h_a : nat; h_b : nat; h_w2 : nat; h_y : nat; h_id : nat;
  h_sd : side; h_axis : Z; h_eps : R; h_sI : list Z; h_sK : list Z; h_sJ : list Z; h_bI : list Z; h_bK : list Z; h_bJ : list Z }.
(** the objects: LayerNorm, MixerMlp *)
Definition h_norm (h : half) : layer := ln_layer req (h_x h) (h_n h) (h_g h) (h_be h) (h_axis h) (h_eps h) (h_id h).
Definition h_lin1 (h : half) : layer := linear_layer req (h_sd h) NoTrans (h_n h) (h_a h) (h_w1 h) 1 None (S (h_id h)) (h_sI h) (h_sK h) (h_sJ h).
Definition h_act (h : half) : layer := act_layer req Gelu (h_a h) (h_b h) (S (S (h_id h))).
Definition h_lin2 (h : half) : layer := linear_layer req (h_sd h) NoTrans (h_b h) (h_y h) (h_w2 h) 1 None (S (S (S (h_id h)))) (h_sI h) (h_sJ h) (h_sK h).
Definition h_mlp (h : half) : pylayer XR := mixer_mlp (ly_py (h_lin1 h)) (ly_py (h_act h)) (ly_py (h_lin2 h)).
(** the second linear layer and the addition of x *)
Definition h_res (h : half) : layer := {|
  ly_m := {| ml_ins := [h_b h; h_w2 h; h_x h]; ml_out := h_y h; ml_F := fun vs idx => lin_F (h_sd h) NoTrans (h_sI h) (h_sJ h) (h_sK h) false vs idx + vs 2%nat idx;
             ml_D := fun _ => True; ml_dl := fun vs gy j => match j with 2%nat => gy | _ => lin_dl (h_sd h) NoTrans (h_sI h) (h_sJ h) (h_sK h) vs gy j end |};
  ly_id := S (S (S (h_id h))); ly_py := {| pl_forward := then_ (pl_forward (ly_py (h_lin2 h))) (add_async (Fin 1) (A (Val (h_x h))) (Fin 1) (A (Val (h_y h)))); pl_backward := Ok [] |};
  ly_saved := fun _ _ => True |}.
Definition h_layers (h : half) : list layer := [h_norm h; h_lin1 h; h_act h; h_res h].
Record half_ok (h : half) : Prop := {
  ho_norm : ln_ok req (h_x h) (h_n h) (h_g h) (h_be h) (h_axis h) (h_eps h) (h_id h);
  ho_lin1 : linear_ok req (h_sd h) NoTrans (h_n h) (h_a h) (h_w1 h) 1 None (h_sI h) (h_sK h) (h_sJ h) (h_bI h) (h_bK h) (h_bJ h);
  ho_act : act_ok req (h_a h) (h_b h);
  ho_lin2 : linear_ok req (h_sd h) NoTrans (h_b h) (h_y h) (h_w2 h) 1 None (h_sI h) (h_sJ h) (h_sK h) (h_bI h) (h_bJ h) (h_bK h);
  ho_same : same_tiling (A (Val (h_x h))) (A (Val (h_y h)));
  ho_xy : h_x h <> h_y h
}.

Section Half.
Variable (h : half).
Hypothesis (H : half_ok h).
Notation x := (h_x h). Notation y := (h_y h).

Lemma res_fwd : fwd_ok req (h_res h).
Proof.
  intros vs M G s Hs _ Hin. cbn [ly_py h_res pl_forward ly_m ml_out ml_F ly_saved ly_id].
  destruct (no_x _ _ _ _ _ _ _ _ (ho_norm h H)) as [Ux _]. destruct (lo_nodes _ _ _ _ _ _ _ _ _ _ _ _ _ _ (ho_lin2 h H)) as (_ & [Uy _] & _).
  eapply nd_then; [apply (linear_fwd req _ _ _ _ _ _ _ (S (S (S (h_id h)))) _ _ _ _ _ _ (ho_lin2 h H) vs M G s Hs I)|].
  { intros j Hj. cbn in Hj. destruct j as [|[|j]]; [apply (Hin 0%nat); cbn; lia|apply (Hin 1%nat); cbn; lia|lia]. }
  intros s1 _ (M1 & S1 & V1 & _ & K1 & T1). cbn [linear_layer ly_m ml_out ml_F ly_id] in *.
  pose proof (ho_xy h H) as Hxy.
  eapply nd_weaken; [apply (h_add _ s1 (Val x) (Val y) (vs 2%nat) (lin_F (h_sd h) NoTrans (h_sI h) (h_sJ h) (h_sK h) false vs) (fun idx => lin_F (h_sd h) NoTrans (h_sI h) (h_sJ h) (h_sK h) false vs idx + vs 2%nat idx) S1 Ux Uy); [congruence|apply (ho_same h H)| |exact V1|intros; ring]|].
  { cbn [ov]. rewrite K1 by assumption. apply (Hin 2%nat). cbn. lia. }
  intros s2 _ H2. apply st_val in H2. eexists. split; [exact H2|]. split; [apply upd_eq|]. split; [exact I|]. split.
  - intros m Hm. rewrite upd_ne by congruence. apply K1. assumption.
  - intros k i Hk. rewrite upd_ne by discriminate. apply T1. assumption.
Qed.
Lemma res_vjp : vjp vshape (ly_m (h_res h)).
Proof.
  pose proof (linear_vjp req _ _ _ _ _ _ _ 0 _ _ _ _ _ _ (ho_lin2 h H)) as V2. cbn [linear_layer ly_m opt_list] in V2.
  pose proof (ho_same h H) as [Es _].
  intros c c' t0 _ Hc. cbn [ly_m h_res ml_ins ml_out ml_F ml_dl] in *. unfold arity in *. cbn [List.length] in *.
  change (forall j idx, (j < 3)%nat -> inb (vshape (nth j [h_b h; h_w2 h; x] 0%nat)) idx -> is_derive (fun t => c t j idx) t0 (c' j idx)) in Hc.
  destruct (V2 c c' t0 I) as (y' & Y1 & Y2). { intros j idx Hj Hi. change (j < 2)%nat in Hj. apply Hc; [lia|]. destruct j as [|[|j]]; [exact Hi|exact Hi|lia]. }
  cbn [ml_out ml_F ml_dl ml_ins List.length] in *.
  assert (Hx : forall idx, inb (vshape y) idx -> is_derive (fun t => c t 2%nat idx) t0 (c' 2%nat idx)).
  { intros idx Hi. apply (Hc 2%nat); [lia|]. cbn [nth]. unfold vshape in *. rewrite Es. assumption. }
  exists (fun idx => y' idx + c' 2%nat idx). split.
  - intros idx Hi. apply (is_derive_plus (K := R_AbsRing) (V := R_NormedModule)); [apply Y1; assumption|apply Hx; assumption].
  - intros gy. transitivity (dot (vshape y) gy y' + dot (vshape y) gy (c' 2%nat)).
    { unfold dot. rewrite <- Rsuml_plus. apply Rsuml_ext. intros. ring. }
    rewrite Y2. unfold Nsum, arity, inp. cbn [List.length ml_ins]. change (seq 0 3) with ([0; 1] ++ [2])%nat. change (seq 0 2) with [0; 1]%nat. rewrite Rsuml_app, !Rsuml_cons, !Rsuml_nil. cbn [nth]. unfold vshape. rewrite Es. ring.
Qed.
Lemma half_fwd : tape_fwd req (h_layers h) (pyseq [pl_forward (ly_py (h_norm h)); pl_forward (h_mlp h); add_async (Fin 1) (A (Val x)) (Fin 1) (A (Val y))]).
Proof.
  assert (Eq : pyseq [pl_forward (ly_py (h_norm h)); pl_forward (h_mlp h); add_async (Fin 1) (A (Val x)) (Fin 1) (A (Val y))] =
    then_ (pl_forward (ly_py (h_norm h))) (then_ (pl_forward (ly_py (h_lin1 h))) (then_ (pl_forward (ly_py (h_act h))) (pl_forward (ly_py (h_res h)))))).
  { unfold h_mlp, mixer_mlp. cbn [pl_forward h_res ly_py]. rewrite !pyseq_cons. change (pyseq (T := XR) []) with (Ok (A := list (task XR)) []). rewrite !then_nop_r, !then_assoc. reflexivity. }
  rewrite Eq. destruct (ln_layer_ok req _ _ _ _ _ _ _ (ho_norm h H)) as (N1 & N2 & _). destruct (linear_layer_ok req _ _ _ _ _ _ _ (S (h_id h)) _ _ _ _ _ _ (ho_lin1 h H)) as (L1 & L2 & _).
  destruct (act_layer_ok req Gelu _ _ (S (S (h_id h))) (ho_act h H)) as (A1 & A2 & _).
  assert (Hnd : forall a, NoDup [a; S a; S (S a); S (S (S a))]) by (intros a; repeat constructor; cbn; lia).
  apply (fwd_app req [h_norm h] [h_lin1 h; h_act h; h_res h]); [constructor; [exact N1|constructor]|apply Hnd|apply fwd_1, N2|].
  apply (fwd_app req [h_lin1 h] [h_act h; h_res h]); [constructor; [exact L1|constructor]|specialize (Hnd (h_id h)); inversion Hnd; assumption|apply fwd_1, L2|].
  apply (fwd_app req [h_act h] [h_res h]); [constructor; [exact A1|constructor]|specialize (Hnd (h_id h)); inversion Hnd as [|? ? _ Hn]; inversion Hn; assumption|apply fwd_1, A2|].
  apply fwd_1, res_fwd.
Qed.

Lemma addg_eq z d G m : addg z d G m = fun idx => G m idx + (if Nat.eq_dec z m then d idx else 0). Proof. reflexivity. Qed.
Lemma acc_shift l vs z d G m : ml_out l <> z -> acc l vs (addg z d G) m = addg z d (acc l vs G) m.
Proof.
  intros Hn. apply functional_extensionality. intros idx. unfold acc. rewrite !addg_eq. destruct (Nat.eq_dec z (ml_out l)); [congruence|].
  replace (fun idx0 => G (ml_out l) idx0 + 0) with (G (ml_out l)) by (apply functional_extensionality; intros; ring). ring.
Qed.
Lemma back_shift ls e0 z d G m : ~ In z (outs ls) -> back ls e0 (addg z d G) m = addg z d (back ls e0 G) m.
Proof.
  revert e0 m. induction ls as [|l ls IH]; intros e0 m Hn; [reflexivity|]. cbn [back]. rewrite <- acc_shift by (intros C; apply Hn; left; assumption).
  apply acc_agree; apply IH; intros C; apply Hn; right; assumption.
Qed.

Lemma half_bwd ns : ordered (lms (h_layers h)) ns -> tape_bwd req [] (h_layers h)
  (pyseq [pl_backward (h_mlp h); pl_backward (ly_py (h_norm h)); add_async (Fin 1) (A (Grad y)) (Fin 1) (A (Grad x))]).
Proof.
  intros HO.
  set (three := [h_norm h; h_lin1 h; h_act h]). set (bw3 := then_ (then_ (pl_backward (ly_py (h_act h))) (pl_backward (ly_py (h_lin1 h)))) (pl_backward (ly_py (h_norm h)))).
  set (add := add_async (Fin 1) (A (Grad y)) (Fin 1) (A (Grad x))).
  assert (Eq : pyseq [pl_backward (h_mlp h); pl_backward (ly_py (h_norm h)); add] = then_ (pl_backward (ly_py (h_lin2 h))) (then_ bw3 add)).
  { unfold h_mlp, mixer_mlp, bw3. cbn [pl_backward]. rewrite !pyseq_cons. change (pyseq (T := XR) []) with (Ok (A := list (task XR)) []). rewrite !then_nop_r, !then_assoc. reflexivity. }
  rewrite Eq. clear Eq.
  destruct (ln_layer_ok req _ _ _ _ _ _ _ (ho_norm h H)) as (N1 & _ & N2). destruct (linear_layer_ok req _ _ _ _ _ _ _ (S (h_id h)) _ _ _ _ _ _ (ho_lin1 h H)) as (L1 & _ & L2).
  destruct (act_layer_ok req Gelu _ _ (S (S (h_id h))) (ho_act h H)) as (A1 & _ & A2).
  assert (HO3 : ordered (lms three) ns /\ ~ In y (ns ++ outs (lms three))).
  { change (lms (h_layers h)) with (lms three ++ [ly_m (h_res h)]) in HO. apply ordered_app in HO as [O1 (O2 & O3 & _)]. split; [assumption|].
    intros C. apply O3. rewrite in_app_iff, <- in_rev. rewrite in_app_iff in C. tauto. }
  destruct HO3 as [HO3 Hy].
  assert (Hx : In x ns) by (destruct HO as [O1 _]; apply (O1 0%nat); cbn; lia).
  assert (Hxo : ~ In x (outs (lms three))) by (eapply ordered_fresh; eassumption).
  assert (T3 : tape_bwd req [] three bw3).
  { assert (Hnd : NoDup (ids three)) by (cbn; repeat constructor; cbn; lia).
    apply (bwd_app req [] [] [h_norm h] [h_lin1 h; h_act h] _ _ ns); [constructor; [exact N1|constructor]|exact Hnd|exact HO3|intros ? []|apply bwd_1, N2|].
    destruct HO3 as (_ & _ & HO3').
    apply (bwd_app req [] [] [h_lin1 h] [h_act h] _ _ (h_n h :: ns)); [constructor; [exact L1|constructor]|inversion Hnd; assumption|exact HO3'|intros ? []|apply bwd_1, L2|apply bwd_1, A2]. }
  intros e0 M G s HD Hs HC _. change (lms (h_layers h)) with (lms three ++ [ly_m (h_res h)]) in *. change (h_layers h) with (three ++ [h_res h]) in HC.
  apply chain_app in HC as [C3 (Cr & _)]. apply dom_app in HD as [D3 _]. set (e3 := eval (lms three) e0) in *.
  assert (Er : back [ly_m (h_res h)] e3 G = addg x (G y) (acc (ly_m (h_lin2 h)) (args (ly_m (h_lin2 h)) e3) G)).
  { apply functional_extensionality. intros m. apply functional_extensionality. intros idx. cbn [back]. unfold addg.
    rewrite (acc3 _ (h_b h) (h_w2 h) x) by reflexivity. rewrite (acc2 _ (h_b h) (h_w2 h)) by reflexivity.
    assert (Ed0 : ml_dl (ly_m (h_res h)) (args (ly_m (h_res h)) e3) (G y) 0%nat = ml_dl (ly_m (h_lin2 h)) (args (ly_m (h_lin2 h)) e3) (G y) 0%nat) by reflexivity.
    assert (Ed1 : ml_dl (ly_m (h_res h)) (args (ly_m (h_res h)) e3) (G y) 1%nat = ml_dl (ly_m (h_lin2 h)) (args (ly_m (h_lin2 h)) e3) (G y) 1%nat) by reflexivity.
    change (ml_out (ly_m (h_res h))) with y. change (ml_out (ly_m (h_lin2 h))) with y. rewrite Ed0, Ed1. change (ml_dl (ly_m (h_res h)) (args (ly_m (h_res h)) e3) (G y) 2%nat) with (G y). ring. }
  eapply nd_then; [apply (linear_bwd_all req _ _ _ _ _ _ _ (S (S (S (h_id h)))) _ _ _ _ _ _ (ho_lin2 h H) (args (ly_m (h_lin2 h)) e3) M G s Hs I)|].
  { intros j Hj. cbn in Hj. destruct j as [|[|j]]; [apply (Cr 0%nat); cbn; lia|apply (Cr 1%nat); cbn; lia|lia]. } { exact I. }
  intros s1 _ (M1 & G1 & S1 & B1 & V1 & T1). cbn [linear_layer ly_id] in T1.
  assert (B1' : G1 = acc (ly_m (h_lin2 h)) (args (ly_m (h_lin2 h)) e3) G) by (apply functional_extensionality; intros m; apply functional_extensionality; intros idx; apply B1).
  eapply nd_then; [apply (T3 e0 M1 G1 s1 D3 S1)|].
  { apply (chain_kept three e0 M M1); [repeat (constructor; [assumption|]); constructor|intros; apply V1| |assumption]. intros k i Hk. apply T1. cbn in Hk. lia. }
  { intros ? []. }
  intros s2 _ (M2 & G2 & S2 & B2 & V2 & T2).
  destruct (no_x _ _ _ _ _ _ _ _ (ho_norm h H)) as [Ux Nx]. destruct (lo_nodes _ _ _ _ _ _ _ _ _ _ _ _ _ _ (ho_lin2 h H)) as (_ & [Uy Ny] & _).
  destruct (Nx (no_rx _ _ _ _ _ _ _ _ (ho_norm h H))) as [Ugx Tx]. destruct (lo_y _ _ _ _ _ _ _ _ _ _ _ _ _ _ (ho_lin2 h H)) as (Ry & _). destruct (Ny Ry) as [Ugy Ty].
  assert (Hyk : G2 y = G y).
  { apply functional_extensionality. intros idx. rewrite B2 by (intros C; apply Hy, in_or_app; right; assumption). rewrite back_other.
    - rewrite B1'. unfold acc. rewrite <- (Rplus_0_r (G y idx)) at 2. f_equal. unfold contrib. apply Rsuml_0. intros j Hj. apply in_seq in Hj. cbn in Hj.
      destruct (lo_y _ _ _ _ _ _ _ _ _ _ _ _ _ _ (ho_lin2 h H)) as (_ & Hb & Hw & _). destruct (Nat.eq_dec _ y) as [C|]; [|reflexivity]. unfold inp in C. cbn in C. destruct j as [|[|j]]; [congruence|congruence|lia].
    - intros l j Hl Hj C. apply Hy. rewrite <- C. pose proof (ordered_inputs _ _ HO3 l j Hl Hj) as Hi. rewrite in_app_iff in *. tauto. }
  eapply nd_weaken; [apply (nd_grad_always req M2 G2 s2 x (G y)); [apply (ho_norm h H)|]|].
  - apply (h_add _ s2 (Grad y) (Grad x) (G y) (G2 x) (fun idx => G2 x idx + G y idx) S2 Ugy Ugx).
    + pose proof (ho_xy h H). congruence.
    + eapply same_trans; [exact Ty|]. eapply same_trans; [apply same_sym, (ho_same h H)|]. apply same_sym. exact Tx.
    + cbn [ov]. rewrite Ry, Hyk. reflexivity.
    + cbn [ov]. rewrite (no_rx _ _ _ _ _ _ _ _ (ho_norm h H)). reflexivity.
    + intros. ring.
  - intros s3 _ S3. exists M2, (addg x (G y) G2). split; [exact S3|]. split; [|split].
    + intros m idx Hm. rewrite back_app. fold e3. rewrite Er. rewrite back_shift by assumption. rewrite addg_eq. unfold addg. f_equal. rewrite B2; [rewrite B1'; reflexivity|].
      intros C. apply Hm. unfold outs. rewrite map_app. apply in_or_app. left. assumption.
    + intros m. rewrite V2, V1. reflexivity.
    + intros k i Hk. change (ids (h_layers h)) with (ids three ++ [S (S (S (h_id h)))]) in Hk. rewrite in_app_iff in Hk. cbn [In] in Hk. rewrite T2, T1; [reflexivity| |tauto]. intros C. apply Hk. right. left. symmetry. exact C.
Qed.
End Half.
End Mix.
