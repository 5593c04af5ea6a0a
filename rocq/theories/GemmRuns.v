(** * gemm at the level of tensors (any scalar operations) *)
From Verif Require Import Base Spec Geometry Traits TraitsProofs Runtime Ops TensorSem ElemGeneric OneOut
  KernelsElem ElemOps Axis AccRuns Loops SliceOps SliceGeo SliceProofs SliceReduce SplitGeo MatOps MatProofs GemmProofs.

Lemma zrange_add a b : 0 <= a -> 0 <= b -> zrange (a + b) = zrange a ++ map (fun l => a + l) (zrange b).
Proof.
  intros Ha Hb. revert b Hb. apply natlike_ind.
  - rewrite Z.add_0_r. rewrite (zrange_neg 0) by lia. simpl. rewrite app_nil_r. reflexivity.
  - intros b Hb IH. unfold Z.succ. rewrite Z.add_assoc. rewrite !zrange_succ by lia. rewrite IH.
    rewrite map_app, app_assoc. reflexivity.
Qed.
Lemma zrange_mul m n : 0 <= m -> 0 <= n ->
  zrange (m * n) = flat_map (fun j => map (fun i => i + m * j) (zrange m)) (zrange n).
Proof.
  intros Hm Hn. pattern n. apply natlike_ind; [| |assumption].
  - rewrite Z.mul_0_r. reflexivity.
  - intros k Hk IH. unfold Z.succ. rewrite zrange_succ by assumption. rewrite flat_map_app. cbn [flat_map].
    rewrite app_nil_r. rewrite <- IH. replace (m * (k + 1)) with (m * k + m) by ring. rewrite zrange_add by nia.
    f_equal. apply map_ext. intros. ring.
Qed.
Lemma flat_map_flat_map {A B C} (f : B -> list C) (g : A -> list B) l :
  flat_map f (flat_map g l) = flat_map (fun x => flat_map f (g x)) l.
Proof. induction l; cbn; [reflexivity|]. rewrite flat_map_app, IHl. reflexivity. Qed.
Lemma flat_map_map {A B C} (f : B -> list C) (g : A -> B) l : flat_map f (map g l) = flat_map (fun x => f (g x)) l.
Proof. induction l; cbn; [reflexivity|]. rewrite IHl. reflexivity. Qed.
Lemma flat_map_ext' {A B} (f g : A -> list B) l : (forall x, In x l -> f x = g x) -> flat_map f l = flat_map g l.
Proof.
  induction l as [|x l IH]; cbn; intros H; [reflexivity|]. rewrite H by (left; reflexivity). rewrite IH; auto.
Qed.
Lemma flat3 {A} m n b (g : Z -> list A) : 0 <= m -> 0 <= n -> 0 <= b ->
  flat_map (fun q => flat_map (fun j => flat_map (fun i => g (i + m * (j + n * q))) (zrange m)) (zrange n)) (zrange b)
  = flat_map g (zrange (m * (n * b))).
Proof.
  intros Hm Hn Hb. rewrite (zrange_mul m (n * b)) by nia. rewrite flat_map_flat_map.
  rewrite (zrange_mul n b) by assumption. rewrite flat_map_flat_map.
  apply flat_map_ext'. intros q _. rewrite flat_map_map. apply flat_map_ext'. intros j _. rewrite flat_map_map. reflexivity.
Qed.

Lemma for_track {A} k x y a0 b0 (body : Z * Z * list A -> res (Z * Z * list A)) (f : Z -> A) ts : 0 < k ->
  (forall l ts, 1 <= l < k -> body (a0 + (l - 1) * x, b0 + (l - 1) * y, ts) = Ok (a0 + l * x, b0 + l * y, ts ++ [f l])) ->
  for_ 1 k (fun _ => body) (a0, b0, ts ++ [f 0]) = Ok (a0 + (k - 1) * x, b0 + (k - 1) * y, ts ++ map f (zrange k)).
Proof.
  intros Hk. replace k with (Z.succ (k - 1)) by lia. assert (H0 : 0 <= k - 1) by lia. revert H0. generalize (k - 1). clear k Hk.
  intros k0 Hk0. pattern k0. apply natlike_ind; [| |assumption].
  - intros _. rewrite for_empty by lia. change (Z.succ 0) with (0 + 1). rewrite zrange_succ by lia. cbn [map app].
    rewrite (zrange_neg 0) by lia. cbn [map app]. do 3 f_equal; ring.
  - intros k Hk IH H. unfold Z.succ at 1. rewrite for_snoc by lia. rewrite IH by (intros; apply H; lia). bnd.
    specialize (H (Z.succ k)). replace (Z.succ (k)) with (k + 1) in * by lia.
    replace (k + 1 - 1) with k in * by lia. rewrite H by lia.
    replace (Z.succ (k + 1) - 1) with (k + 1) by lia. do 2 f_equal.
    unfold Z.succ. rewrite (zrange_succ (k + 1)) by lia. rewrite map_app, app_assoc. reflexivity.
Qed.

(** Position of (i, l, b) in an array of op shape n1 x n2 x batch. *)
Definition posn (tr : transop) (n1 n2 i l b : Z) : Z :=
  b * (n1 * n2) + opos tr (match tr with NoTrans => n1 | Trans => n2 end) i l.

Section OpGeo.
Context (tr : transop) {s1 b1 s2 b2 s3 b3 : list Z} (G1 : geo s1 b1) (G2 : geo s2 b2) (G3 : geo s3 b3).
Let sh := op_dims tr s1 s2 s3.
Let ba := op_dims tr b1 b2 b3.

Lemma op_bound i l b : 0 <= i < rn s1 b1 -> 0 <= l < rn s2 b2 -> 0 <= b < rn s3 b3 ->
  0 <= posn tr (rn s1 b1) (rn s2 b2) i l b < rn sh ba.
Proof.
  intros Hi Hl Hb. unfold sh, ba, op_dims, posn, opos. destruct tr.
  - replace (b * (rn s1 b1 * rn s2 b2) + (i + l * rn s1 b1)) with ((i + rn s1 b1 * l) + rn (s1 ++ s2) (b1 ++ b2) * b)
      by (rewrite (rn_app G1); ring).
    apply (split_bound (geo_app G1 G2)); [apply (split_bound G1)|]; assumption.
  - replace (b * (rn s1 b1 * rn s2 b2) + (l + i * rn s2 b2)) with ((l + rn s2 b2 * i) + rn (s2 ++ s1) (b2 ++ b1) * b)
      by (rewrite (rn_app G2); ring).
    apply (split_bound (geo_app G2 G1)); [apply (split_bound G2)|]; assumption.
Qed.
Lemma op_rsh i l b : 0 <= i < rn s1 b1 -> 0 <= l < rn s2 b2 -> 0 <= b < rn s3 b3 ->
  rsh sh ba (posn tr (rn s1 b1) (rn s2 b2) i l b) = op_dims tr (rsh s1 b1 i) (rsh s2 b2 l) (rsh s3 b3 b).
Proof.
  intros Hi Hl Hb. unfold sh, ba, op_dims, posn, opos. destruct tr.
  - replace (b * (rn s1 b1 * rn s2 b2) + (i + l * rn s1 b1)) with ((i + rn s1 b1 * l) + rn (s1 ++ s2) (b1 ++ b2) * b)
      by (rewrite (rn_app G1); ring).
    rewrite (rsh_app (geo_app G1 G2) G3) by (try apply (split_bound G1); assumption).
    rewrite (rsh_app G1 G2) by assumption. reflexivity.
  - replace (b * (rn s1 b1 * rn s2 b2) + (l + i * rn s2 b2)) with ((l + rn s2 b2 * i) + rn (s2 ++ s1) (b2 ++ b1) * b)
      by (rewrite (rn_app G2); ring).
    rewrite (rsh_app (geo_app G2 G1) G3) by (try apply (split_bound G2); assumption).
    rewrite (rsh_app G2 G1) by assumption. reflexivity.
Qed.
Lemma op_rsz i l b : 0 <= i < rn s1 b1 -> 0 <= l < rn s2 b2 -> 0 <= b < rn s3 b3 ->
  rsz sh ba (posn tr (rn s1 b1) (rn s2 b2) i l b) = rsz s1 b1 i * rsz s2 b2 l * rsz s3 b3 b.
Proof.
  intros Hi Hl Hb. unfold rsz. rewrite op_rsh by assumption. unfold op_dims. destruct tr; rewrite !prodZ_app; ring.
Qed.
Lemma op_rtl i1 i2 i3 : inb s1 i1 -> inb s2 i2 ->
  rtl sh ba (op_dims tr i1 i2 i3) = posn tr (rn s1 b1) (rn s2 b2) (rtl s1 b1 i1) (rtl s2 b2 i2) (rtl s3 b3 i3).
Proof.
  intros H1 H2. unfold sh, ba, op_dims, posn, opos. destruct tr.
  - rewrite (rtl_app (geo_app G1 G2)) by (apply inb_app; assumption). rewrite (rtl_app G1) by assumption.
    rewrite (rn_app G1). ring.
  - rewrite (rtl_app (geo_app G2 G1)) by (apply inb_app; assumption). rewrite (rtl_app G2) by assumption.
    rewrite (rn_app G2). ring.
Qed.
Lemma op_rof i1 i2 i3 : inb s1 i1 -> inb s2 i2 ->
  rof sh ba (op_dims tr i1 i2 i3) =
  posn tr (rsz s1 b1 (rtl s1 b1 i1)) (rsz s2 b2 (rtl s2 b2 i2)) (rof s1 b1 i1) (rof s2 b2 i2) (rof s3 b3 i3).
Proof.
  intros H1 H2. pose proof (rtl_bound G1 i1 H1). pose proof (rtl_bound G2 i2 H2).
  unfold sh, ba, op_dims, posn, opos. destruct tr.
  - rewrite (rof_app (geo_app G1 G2)) by (apply inb_app; assumption). rewrite (rof_app G1) by assumption.
    rewrite (rtl_app G1) by assumption. rewrite (rsz_app G1 G2) by assumption. ring.
  - rewrite (rof_app (geo_app G2 G1)) by (apply inb_app; assumption). rewrite (rof_app G2) by assumption.
    rewrite (rtl_app G2) by assumption. rewrite (rsz_app G2 G1) by assumption. ring.
Qed.
Lemma op_inb i1 i2 i3 : inb s1 i1 -> inb s2 i2 -> inb s3 i3 -> inb sh (op_dims tr i1 i2 i3).
Proof. intros. unfold sh, op_dims. destruct tr; repeat apply inb_app; assumption. Qed.
End OpGeo.

Section Run.
Context {T : Type} {O : Ops T}.
Local Notation vec := (list T).
Variables (tA tB : transop) (A B C : tensor).
Variables (sm sk sn sb bm bk bn bb : list Z).
Hypothesis (HA : wft A) (HB : wft B) (HC : wft C).
Hypothesis (Lm : List.length sm = List.length bm) (Lk : List.length sk = List.length bk)
  (Ln : List.length sn = List.length bn) (Lb : List.length sb = List.length bb).
Hypothesis (EAs : t_shape A = op_dims tA sm sk sb) (EAb : t_base A = op_dims tA bm bk bb).
Hypothesis (EBs : t_shape B = op_dims tB sk sn sb) (EBb : t_base B = op_dims tB bk bn bb).
Hypothesis (ECs : t_shape C = sm ++ sn ++ sb) (ECb : t_base C = bm ++ bn ++ bb).

Lemma gm_geo : geo sm bm /\ geo sk bk /\ geo sn bn /\ geo sb bb.
Proof.
  pose proof (wft_geo A HA) as GA. rewrite EAs, EAb in GA. pose proof (wft_geo C HC) as GC. rewrite ECs, ECb in GC.
  destruct (geo_app_inv _ _ _ _ Lm GC) as [G1 G2]. destruct (geo_app_inv _ _ _ _ Ln G2) as [G3 G4].
  split; [assumption|]. split; [|split; assumption].
  unfold op_dims in GA. destruct tA.
  - apply geo_app_inv in GA as [GA _]; [|rewrite !app_length; lia]. apply geo_app_inv in GA as [_ GA]; assumption.
  - apply geo_app_inv in GA as [GA _]; [|rewrite !app_length; lia]. apply geo_app_inv in GA as [GA _]; assumption.
Qed.
Lemma C_op : t_shape C = op_dims NoTrans sm sn sb /\ t_base C = op_dims NoTrans bm bn bb.
Proof. unfold op_dims. rewrite <- !app_assoc. auto. Qed.

Let gM := rn sm bm. Let gK := rn sk bk. Let gN := rn sn bn. Let gB := rn sb bb.
Definition ci (c : Z) := cz [rn sm bm; rn sn bn; rn sb bb] 0 c.
Definition cj (c : Z) := cz [rn sm bm; rn sn bn; rn sb bb] 1 c.
Definition cb (c : Z) := cz [rn sm bm; rn sn bn; rn sb bb] 2 c.
Definition gemm_xs : list (Z * Z) := list_prod (zrange (ntiles C)) (zrange (rn sk bk)).
Definition tA_of (p : Z * Z) := posn tA gM gK (ci (fst p)) (snd p) (cb (fst p)).
Definition tB_of (p : Z * Z) := posn tB gK gN (snd p) (cj (fst p)) (cb (fst p)).

Lemma C_ntiles : ntiles C = gM * (gN * gB).
Proof.
  destruct gm_geo as (G1 & G2 & G3 & G4). unfold ntiles. rewrite ECs, ECb.
  fold (rn (sm ++ sn ++ sb) (bm ++ bn ++ bb)). rewrite (rn_app G1), (rn_app G3). reflexivity.
Qed.
Lemma pos4 : 0 < gM /\ 0 < gK /\ 0 < gN /\ 0 < gB.
Proof. destruct gm_geo as (G1 & G2 & G3 & G4). repeat split; apply rn_pos; assumption. Qed.

Lemma c_bounds c : 0 <= c < ntiles C ->
  0 <= ci c < gM /\ 0 <= cj c < gN /\ 0 <= cb c < gB /\ ci c + gM * (cj c + gN * cb c) = c.
Proof.
  intros Hc. rewrite C_ntiles in Hc. destruct pos4 as (P1 & P2 & P3 & P4).
  apply (cz3_inv gM gN gB c P1 P3 P4 Hc).
Qed.
Lemma xs_In p : In p gemm_xs -> 0 <= fst p < ntiles C /\ 0 <= snd p < gK.
Proof. destruct p. unfold gemm_xs. rewrite in_prod_iff, !zrange_In. auto. Qed.

Lemma C_tile c : 0 <= c < ntiles C -> tsh C c = rsh sm bm (ci c) ++ rsh sn bn (cj c) ++ rsh sb bb (cb c) /\
  tsz C c = rsz sm bm (ci c) * (rsz sn bn (cj c) * rsz sb bb (cb c)).
Proof.
  intros Hc. destruct (c_bounds c Hc) as (B1 & B2 & B3 & E). destruct gm_geo as (G1 & G2 & G3 & G4).
  destruct C_op as [C1 C2].
  assert (Es : tsh C c = rsh sm bm (ci c) ++ rsh sn bn (cj c) ++ rsh sb bb (cb c)).
  { unfold tsh. rewrite C1, C2. rewrite <- E at 1.
    replace (ci c + gM * (cj c + gN * cb c)) with (posn NoTrans gM gN (ci c) (cj c) (cb c)) by (unfold posn, opos; ring).
    etransitivity; [apply (op_rsh NoTrans G1 G3 G4); assumption|]. unfold op_dims. rewrite <- app_assoc. reflexivity. }
  split; [assumption|]. unfold tsz. rewrite Es, !prodZ_app. reflexivity.
Qed.
Lemma A_tile p : In p gemm_xs -> 0 <= tA_of p < ntiles A /\
  tsh A (tA_of p) = op_dims tA (rsh sm bm (ci (fst p))) (rsh sk bk (snd p)) (rsh sb bb (cb (fst p))) /\
  tsz A (tA_of p) = rsz sm bm (ci (fst p)) * rsz sk bk (snd p) * rsz sb bb (cb (fst p)).
Proof.
  intros Hp. destruct (xs_In p Hp) as [X1 X2]. destruct (c_bounds _ X1) as (B1 & B2 & B3 & E).
  destruct gm_geo as (G1 & G2 & G3 & G4). unfold ntiles, tsz, tsh. rewrite EAs, EAb. split; [|split].
  - apply (op_bound tA G1 G2); assumption.
  - apply (op_rsh tA G1 G2 G4); assumption.
  - apply (op_rsz tA G1 G2 G4); assumption.
Qed.
Lemma B_tile p : In p gemm_xs -> 0 <= tB_of p < ntiles B /\
  tsz B (tB_of p) = rsz sk bk (snd p) * rsz sn bn (cj (fst p)) * rsz sb bb (cb (fst p)).
Proof.
  intros Hp. destruct (xs_In p Hp) as [X1 X2]. destruct (c_bounds _ X1) as (B1 & B2 & B3 & E).
  destruct gm_geo as (G1 & G2 & G3 & G4). unfold ntiles, tsz, tsh. rewrite EBs, EBb. split.
  - apply (op_bound tB G2 G3); assumption.
  - apply (op_rsz tB G2 G3 G4); assumption.
Qed.

Lemma div_exact a b c : 0 < b -> c = a * b -> div_ c b = Ok a.
Proof. intros Hb ->. unfold div_. destruct (Z.eqb_spec b 0); [lia|]. rewrite Z.quot_mul by lia. reflexivity. Qed.

Lemma nd_A : zlen (t_shape A) - zlen sb - zlen sk = zlen sm.
Proof. rewrite EAs. unfold op_dims. destruct tA; rewrite !zlen_app; lia. Qed.
Lemma nd_C : zlen (t_shape C) - zlen sb = zlen (sm ++ sn).
Proof. rewrite ECs, !zlen_app. lia. Qed.
Lemma zl_rsh s b i : geo s b -> 0 <= i < rn s b -> zlen (rsh s b i) = zlen s.
Proof. intros G Hi. unfold zlen. rewrite (rsh_length G) by assumption. reflexivity. Qed.

Lemma tile_k_ok p : In p gemm_xs ->
  gemm_tile_k tA A (tt_of (tsh A (tA_of p))) (zlen sk) (zlen sb) (rsz sb bb (cb (fst p))) = Ok (rsz sk bk (snd p)).
Proof.
  intros Hp. destruct (A_tile p Hp) as (_ & -> & _). destruct (xs_In p Hp) as [X1 X2].
  destruct (c_bounds _ X1) as (B1 & B2 & B3 & _). destruct gm_geo as (G1 & G2 & G3 & G4).
  unfold gemm_tile_k. rewrite t_ndim_eq by assumption. rewrite nd_A. unfold op_dims. destruct tA; rewrite <- app_assoc.
  - rewrite rd_ms_app by (symmetry; apply zl_rsh; assumption). bnd.
    apply div_exact; [apply rsz_pos; assumption|]. apply prodZ_app.
  - rewrite rd_ms_app by (symmetry; apply zl_rsh; assumption). reflexivity.
Qed.

Definition gemm_task (alpha beta : T) (redux : bool) (p : Z * Z) : task T :=
  gemm_submit tA tB (rsz sm bm (ci (fst p))) (rsz sn bn (cj (fst p))) (rsz sk bk (snd p)) (rsz sb bb (cb (fst p)))
    alpha (th A (tA_of p)) (th B (tB_of p)) (bj beta (snd p)) (th C (fst p)) redux.

Lemma gemm_tasks alpha beta redux : gemm_match tA tB A B C (zlen sk) (zlen sb) ->
  gemm_async alpha tA A tB B beta C (zlen sk) (zlen sb) redux = Ok (map (gemm_task alpha beta redux) gemm_xs).
Proof.
  intros Hm. unfold gemm_async.
  rewrite (checks_true _ _ (gemm_checks tA tB A B C (zlen sk) (zlen sb) HA HB HC) Hm). bnd.
  rewrite !t_ndim_eq, !t_grid_eq by assumption. rewrite nd_A, nd_C.
  destruct gm_geo as (G1 & G2 & G3 & G4). destruct pos4 as (P1 & P2 & P3 & P4).
  rewrite ECs, ECb. rewrite (gridZ_app sm) by assumption. rewrite (gridZ_app sn) by assumption.
  rewrite rd_ms_app by (unfold zlen; rewrite gridZ_length by assumption; reflexivity). bnd.
  rewrite app_assoc. rewrite rd_ms_app by (rewrite !zlen_app; unfold zlen; rewrite !gridZ_length by assumption; reflexivity). bnd.
  fold (rn sb bb). fold gB. fold (rn sm bm). fold gM.
  rewrite (div_exact gN gB) by (assumption || apply prodZ_app). bnd.
  assert (EK : match tA with
    | NoTrans => '(_, x) <- rd (tt_ms (tt_of (gridZ (t_shape A) (t_base A)))) (zlen sm) ;;
                 k <- div_ x gB ;; Ok (k, 1, gM)
    | Trans => '(k, _) <- rd (tt_ms (tt_of (gridZ (t_shape A) (t_base A)))) (zlen sk) ;; Ok (k, k, 1)
    end = Ok (gK, match tA with NoTrans => 1 | Trans => gK end, match tA with NoTrans => gM | Trans => 1 end)).
  { rewrite EAs, EAb. unfold op_dims. destruct tA.
    - rewrite <- !app_assoc. rewrite (gridZ_app sm) by assumption. rewrite (gridZ_app sk) by assumption.
      rewrite rd_ms_app by (unfold zlen; rewrite gridZ_length by assumption; reflexivity). bnd.
      rewrite (div_exact gK gB) by (assumption || apply prodZ_app). reflexivity.
    - rewrite <- !app_assoc. rewrite (gridZ_app sk) by assumption.
      rewrite rd_ms_app by (unfold zlen; rewrite gridZ_length by assumption; reflexivity). reflexivity. }
  rewrite EK. clear EK. bnd.
  set (sA0 := match tA with NoTrans => 1 | Trans => gK end). set (sA1 := match tA with NoTrans => gM | Trans => 1 end).
  set (sB0 := match tB with NoTrans => 1 | Trans => gN end). set (sB1 := match tB with NoTrans => gK | Trans => 1 end).
  replace (match tB with NoTrans => (1, gK) | Trans => (gN, 1) end) with (sB0, sB1) by (unfold sB0, sB1; destruct tB; reflexivity).
  set (g := fun c => map (fun l => gemm_task alpha beta redux (c, l)) (zrange gK)).
  rewrite (for_flat gB _ (fun q => flat_map (fun j => flat_map (fun i => g (i + gM * (j + gN * q))) (zrange gM)) (zrange gN))).
  { cbn [app]. rewrite flat3 by lia. rewrite <- C_ntiles. unfold g.
    rewrite (flat_map_pairs (fun c l => gemm_task alpha beta redux (c, l))). f_equal. }
  intros q acc Hq. apply for_flat. intros j acc' Hj. apply for_flat. intros i acc'' Hi.
  set (c := i + gM * (j + gN * q)).
  assert (Ec : ci c = i /\ cj c = j /\ cb c = q /\ 0 <= c < ntiles C).
  { rewrite C_ntiles. apply (cz3 gM gN gB i j q Hi Hj Hq). }
  destruct Ec as (Eci & Ecj & Ecb & Hc).
  assert (Hin : forall l, 0 <= l < gK -> In (c, l) gemm_xs) by (intros; apply in_prod; apply zrange_In; assumption).
  replace ((q * gN + j) * gM + i) with c by (unfold c; ring). cbv zeta.
  rewrite get_tile_handle_ok by assumption. bnd. rewrite get_tile_traits_ok by assumption. bnd.
  destruct (C_tile c Hc) as [-> _]. rewrite Eci, Ecj, Ecb.
  rewrite rd_ms_app by (rewrite zl_rsh; [reflexivity|assumption|fold gM; lia]). bnd.
  rewrite app_assoc. rewrite rd_ms_app by (rewrite !zlen_app; rewrite !zl_rsh; (reflexivity || assumption)). bnd.
  fold (rsz sm bm i) (rsz sb bb q).
  rewrite (div_exact (rsz sn bn j) (rsz sb bb q)) by (try apply prodZ_app; apply rsz_pos; assumption). bnd.
  assert (OA : forall l, sA0 * i + q * gM * gK + l * sA1 = tA_of (c, l)).
  { intros l. unfold tA_of, posn, opos, sA0, sA1. cbn [fst snd]. rewrite Eci, Ecb. destruct tA; ring. }
  assert (OB : forall l, sB1 * j + q * gN * gK + l * sB0 = tB_of (c, l)).
  { intros l. unfold tB_of, posn, opos, sB0, sB1. cbn [fst snd]. rewrite Ecj, Ecb. destruct tB; ring. }
  assert (OA0 : sA0 * i + q * gM * gK = tA_of (c, 0)) by (rewrite <- OA; ring).
  assert (OB0 : sB1 * j + q * gN * gK = tB_of (c, 0)) by (rewrite <- OB; ring).
  destruct (A_tile (c, 0) (Hin 0 ltac:(lia))) as (A1 & _). destruct (B_tile (c, 0) (Hin 0 ltac:(lia))) as (B1 & _).
  pose proof (tile_k_ok (c, 0) (Hin 0 ltac:(lia))) as K0. cbn [fst snd] in K0. rewrite Ecb in K0.
  rewrite OA0, OB0. rewrite !get_tile_handle_ok by assumption. bnd. bnd. rewrite get_tile_traits_ok by assumption. bnd.
  rewrite K0. bnd.
  replace (gemm_submit tA tB (rsz sm bm i) (rsz sn bn j) (rsz sk bk 0) (rsz sb bb q) alpha
             (th A (tA_of (c, 0))) (th B (tB_of (c, 0))) beta (th C c) redux)
    with (gemm_task alpha beta redux (c, 0)) by (unfold gemm_task; cbn [fst snd]; rewrite Eci, Ecj, Ecb; reflexivity).
  match goal with |- (bind (for_ 1 gK (fun _ => ?b) _) _) = _ =>
    rewrite (for_track gK sA1 sB0 (tA_of (c, 0)) (tB_of (c, 0)) b (fun l => gemm_task alpha beta redux (c, l))) end.
  - bnd. reflexivity.
  - lia.
  - intros l ts Hl. cbv beta iota zeta.
    assert (EA : tA_of (c, 0) + (l - 1) * sA1 + sA1 = tA_of (c, l)) by (rewrite <- !OA; ring).
    assert (EB : tB_of (c, 0) + (l - 1) * sB0 + sB0 = tB_of (c, l)) by (rewrite <- !OB; ring).
    rewrite EA, EB. assert (Hp : In (c, l) gemm_xs) by (apply Hin; lia).
    destruct (A_tile _ Hp) as (A2 & _). destruct (B_tile _ Hp) as (B2 & _).
    rewrite !get_tile_handle_ok by assumption. bnd. bnd. rewrite get_tile_traits_ok by assumption. bnd.
    pose proof (tile_k_ok (c, l) Hp) as Kl. cbn [fst snd] in Kl. rewrite Ecb in Kl. rewrite Kl. bnd.
    replace (tA_of (c, 0) + l * sA1) with (tA_of (c, l)) by (rewrite <- !OA; ring).
    replace (tB_of (c, 0) + l * sB0) with (tB_of (c, l)) by (rewrite <- !OB; ring).
    do 4 f_equal. unfold gemm_task. cbn [fst snd]. rewrite Eci, Ecj, Ecb. unfold bj.
    destruct (Z.eqb_spec l 0); [lia|]. reflexivity.
Qed.

(** Contribution of the l-th tile of the contracted dimensions to element (mi, ni, bi) of op(A)*op(B). *)
Definition tile_dot (s : store T) (mi ni bi : list Z) (l : Z) : T :=
  fold_left (fun t o => o_add t (o_mul (elem s A (op_dims tA mi (ridx sk bk l o) bi))
                                       (elem s B (op_dims tB (ridx sk bk l o) ni bi))))
    (zrange (rsz sk bk l)) o_zero.

Lemma A_elem (s : store T) mi bi l o : inb sm mi -> inb sb bi -> 0 <= l < gK -> 0 <= o < rsz sk bk l ->
  elem s A (op_dims tA mi (ridx sk bk l o) bi) =
  zn (fl (s (th A (posn tA gM gK (rtl sm bm mi) l (rtl sb bb bi)))))
     (posn tA (rsz sm bm (rtl sm bm mi)) (rsz sk bk l) (rof sm bm mi) o (rof sb bb bi)).
Proof.
  intros H1 H3 Hl Ho. destruct gm_geo as (G1 & G2 & G3 & G4). destruct (ridx_spec G2 l o Hl Ho) as (I1 & I2 & I3).
  unfold elem, etile, eoff. rewrite EAs, EAb.
  fold (rtl (op_dims tA sm sk sb) (op_dims tA bm bk bb) (op_dims tA mi (ridx sk bk l o) bi)).
  fold (rof (op_dims tA sm sk sb) (op_dims tA bm bk bb) (op_dims tA mi (ridx sk bk l o) bi)).
  rewrite (op_rtl tA G1 G2) by assumption. rewrite (op_rof tA G1 G2) by assumption. rewrite I2, I3. reflexivity.
Qed.
Lemma B_elem (s : store T) ni bi l o : inb sn ni -> inb sb bi -> 0 <= l < gK -> 0 <= o < rsz sk bk l ->
  elem s B (op_dims tB (ridx sk bk l o) ni bi) =
  zn (fl (s (th B (posn tB gK gN l (rtl sn bn ni) (rtl sb bb bi)))))
     (posn tB (rsz sk bk l) (rsz sn bn (rtl sn bn ni)) o (rof sn bn ni) (rof sb bb bi)).
Proof.
  intros H1 H3 Hl Ho. destruct gm_geo as (G1 & G2 & G3 & G4). destruct (ridx_spec G2 l o Hl Ho) as (I1 & I2 & I3).
  unfold elem, etile, eoff. rewrite EBs, EBb.
  fold (rtl (op_dims tB sk sn sb) (op_dims tB bk bn bb) (op_dims tB (ridx sk bk l o) ni bi)).
  fold (rof (op_dims tB sk sn sb) (op_dims tB bk bn bb) (op_dims tB (ridx sk bk l o) ni bi)).
  rewrite (op_rtl tB G2 G3) by assumption. rewrite (op_rof tB G2 G3) by assumption. rewrite I2, I3. reflexivity.
Qed.

Theorem gemm_runs alpha beta s : gemm_match tA tB A B C (zlen sk) (zlen sb) ->
  disj A C -> disj B C -> stored KF s A -> stored KF s B -> stored KF s C ->
  runs (gemm_async alpha tA A tB B beta C (zlen sk) (zlen sb) false) s (fun s' =>
    (forall mi ni bi, inb sm mi -> inb sn ni -> inb sb bi ->
       elem s' C (mi ++ ni ++ bi) =
       fold_left (fun v l => gm (bj beta l) (o_mul alpha (tile_dot s mi ni bi l)) v) (zrange gK) (elem s C (mi ++ ni ++ bi))) /\
    frame [C] s s').
Proof.
  intros Hm DA DB SA SB SC. destruct gm_geo as (G1 & G2 & G3 & G4).
  set (M := fun p : Z * Z => rsz sm bm (ci (fst p))). set (N := fun p : Z * Z => rsz sn bn (cj (fst p))).
  set (K := fun p : Z * Z => rsz sk bk (snd p)). set (Bt := fun p : Z * Z => rsz sb bb (cb (fst p))).
  assert (Hpos : forall p, In p gemm_xs -> 0 < M p /\ 0 < N p /\ 0 < K p /\ 0 < Bt p).
  { intros p Hp. destruct (xs_In p Hp) as [X1 X2]. destruct (c_bounds _ X1) as (B1 & B2 & B3 & _).
    unfold M, N, K, Bt. split; [|split; [|split]]; apply rsz_pos; assumption. }
  eapply runs_weaken; [apply (acc_elem C gemm_xs fst (fun p => rmode false (bj beta (snd p)))
    (fun p => [th A (tA_of p); th B (tB_of p)]) (fun _ => []) (fun _ => [])
    (fun p => wrap3 (fun a b c => k_gemm tA tB (M p) (N p) (K p) (Bt p) alpha a b (bj beta (snd p)) c))
    (fun p b1 _ o v =>
       let i := cz [M p; N p; Bt p] 0 o in let j := cz [M p; N p; Bt p] 1 o in let q := cz [M p; N p; Bt p] 2 o in
       gm (bj beta (snd p)) (o_mul alpha (gdot tA tB (M p) (N p) (K p) (fl (nth 0 b1 (BF []))) (fl (nth 1 b1 (BF [])))
         (q * (M p * K p)) (q * (N p * K p)) i j)) v) s); auto|].
  - rewrite gemm_tasks by assumption. reflexivity.
  - intros p Hp. apply (xs_In p Hp).
  - intros p _. apply rmode_cases.
  - intros p h Hp [H|[[]|[]]]. destruct H as [<-|[<-|[]]].
    + apply disj_notin; [assumption..|]. apply (A_tile p Hp).
    + apply disj_notin; [assumption..|]. apply (B_tile p Hp).
  - intros p b1 b2 o v v' _ E. apply rmode_W in E. unfold gm. rewrite E. reflexivity.
  - intros p st d sc Hp Hti Hdl Hsc. destruct sc; [|discriminate]. exists []. split; [|reflexivity].
    destruct (A_tile p Hp) as (A1 & _ & A2). destruct (B_tile p Hp) as (B1 & B2).
    destruct (xs_In p Hp) as [X1 X2]. destruct (C_tile _ X1) as [_ C2]. destruct (Hpos p Hp) as (P1 & P2 & P3 & P4).
    destruct (bufF s st A _ Hti SA A1) as (la & Ea & La). destruct (bufF s st B _ Hti SB B1) as (lb & Eb & Lb').
    cbn [map app nth]. rewrite Ea, Eb. cbn [wrap3 fl].
    rewrite k_gemm_ok; [|assumption..| | |].
    + bnd. rewrite C2. reflexivity.
    + rewrite La, A2. reflexivity.
    + rewrite Lb', B2. reflexivity.
    + rewrite Hdl, C2. reflexivity.
  - intros s' _ [H1 H2]. split; [|assumption]. intros mi ni bi Im In_ Ib.
    assert (Hi : inb (t_shape C) (mi ++ ni ++ bi)) by (rewrite ECs; repeat apply inb_app; assumption).
    rewrite H1 by assumption. unfold gemm_xs. rewrite filter_prod_fst; [|apply NoDup_zrange|apply zrange_In; apply etile_bound; assumption].
    rewrite fold_left_map'. apply fold_left_ext. intros v l Hl. apply zrange_In in Hl. cbn [snd map nth].
    set (c := etile C (mi ++ ni ++ bi)).
    pose proof (rtl_bound G1 mi Im) as B1. pose proof (rtl_bound G3 ni In_) as B2. pose proof (rtl_bound G4 bi Ib) as B3.
    pose proof (rof_bound G1 mi Im) as F1. pose proof (rof_bound G3 ni In_) as F2. pose proof (rof_bound G4 bi Ib) as F3.
    assert (Ec : c = rtl sm bm mi + gM * (rtl sn bn ni + gN * rtl sb bb bi)).
    { unfold c, etile. rewrite ECs, ECb. etransitivity; [apply (rtl_app G1); assumption|].
      unfold gM. do 2 f_equal. apply (rtl_app G3). assumption. }
    assert (Eo : eoff C (mi ++ ni ++ bi) = rof sm bm mi + rsz sm bm (rtl sm bm mi) *
       (rof sn bn ni + rsz sn bn (rtl sn bn ni) * rof sb bb bi)).
    { unfold eoff. rewrite ECs, ECb. etransitivity; [apply (rof_app G1); assumption|].
      do 2 f_equal. apply (rof_app G3). assumption. }
    destruct (cz3 gM gN gB _ _ _ B1 B2 B3) as (D0 & D1 & D2 & _). rewrite <- Ec in D0, D1, D2.
    change (ci c = rtl sm bm mi) in D0. change (cj c = rtl sn bn ni) in D1. change (cb c = rtl sb bb bi) in D2.
    unfold M, N, K, Bt, tA_of, tB_of. cbn [fst snd]. rewrite D0, D1, D2.
    destruct (cz3 _ _ _ _ _ _ F1 F2 F3) as (O0 & O1 & O2 & _). rewrite <- Eo in O0, O1, O2.
    rewrite O0, O1, O2. f_equal. f_equal. unfold gdot, tile_dot. apply fold_left_ext.
    intros t o Ho. apply zrange_In in Ho. rewrite A_elem, B_elem by assumption. unfold posn.
    rewrite (Z.mul_comm (rsz sn bn _) (rsz sk bk l)). reflexivity.
Qed.
End Run.
