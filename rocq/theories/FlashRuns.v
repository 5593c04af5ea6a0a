(** * Fused attention: tensor level, forward (any scalar operations, tiles of equal sizes) *)
From Verif Require Import Base Spec Geometry Traits TraitsProofs Runtime Ops TensorSem ElemGeneric OneOut
  KernelsElem ElemOps Axis AccRuns Loops SliceOps SliceGeo SliceProofs SliceReduce SoftmaxOps PairGeo SoftmaxProofs SoftmaxRuns
  MatOps GemmProofs LossOps LossProofs FlashOps FlashGeo FlashProofs.

Ltac inbt := unfold inb; repeat first [apply Forall2_nil | apply Forall2_cons; [assumption|]].

Lemma for_state {A St} n (body : Z -> St * list A -> res (St * list A)) (f : Z -> A) (I : St -> Prop) s0 ts :
  0 <= n -> I s0 ->
  (forall j s ts, 0 <= j < n -> I s -> exists s', I s' /\ body j (s, ts) = Ok (s', ts ++ [f j])) ->
  exists s', I s' /\ for_ 0 n body (s0, ts) = Ok (s', ts ++ map f (zrange n)).
Proof.
  intros Hn H0. pattern n. apply natlike_ind; [| |assumption].
  - intros _. exists s0. rewrite for_empty by lia. cbn. rewrite app_nil_r. auto.
  - intros k Hk IH Hb. destruct IH as (s' & Hs' & E); [intros; apply Hb; [lia|assumption]|].
    unfold Z.succ. rewrite for_snoc by assumption. rewrite E, bind_Ok.
    destruct (Hb k s' (ts ++ map f (zrange k)) ltac:(lia) Hs') as (s'' & Hs'' & E'). exists s''. split; [assumption|].
    rewrite E', zrange_succ, map_app, <- app_assoc by assumption. reflexivity.
Qed.

Section R.
Context {T : Type} {O : Ops T}.
Local Notation vec := (list T).
Variables (h st bt nt gs gb gn : Z).
Hypotheses (Hh : 0 < h) (Hst : 0 < st) (Hbt : 0 < bt) (Hnt : 0 < nt) (Hgs : 0 < gs) (Hgb : 0 < gb) (Hgn : 0 < gn).
Hypothesis zz : o_eqb o_zero o_zero = true.
Hypothesis oz : o_eqb o_one o_zero = false.
Let N := gs * (gb * gn).
Let BT := bt * nt.
Local Notation shX := (shX h st bt nt gs gb gn).
Local Notation shP := (shP st bt nt gs gb gn).
Local Notation shS := (shS st bt nt gs gb gn).
Local Notation shT := (shT st bt nt gs gb gn).
Local Notation shM := (shM st gs).
Local Notation gc := (gc bt nt gb).
Local Notation cc := (cc bt nt).

(** ** Elements by tile and offset *)
Lemma elX (s : store T) X d j l x y : shX X -> 0 <= d < h -> 0 <= j < gs -> 0 <= l < st -> 0 <= x < gb * bt -> 0 <= y < gn * nt ->
  zn (fl (s (th X (j + gs * gc x y)))) (d + h * (l + st * cc x y)) = elem s X [d; j * st + l; x; y].
Proof.
  intros HX Hd Hj Hl Hx Hy. unfold elem. destruct (edivj st j l Hst Hl) as [E1 E2].
  rewrite (tX h st bt nt gs gb gn) by assumption. rewrite (oX h st bt nt gs gb gn) by (assumption || nia). rewrite E1, E2. reflexivity.
Qed.
Lemma elS (s : store T) X j l x y : shS X -> 0 <= j < gs -> 0 <= l < st -> 0 <= x < gb * bt -> 0 <= y < gn * nt ->
  zn (fl (s (th X (j + gs * gc x y)))) (l + st * cc x y) = elem s X [j * st + l; x; y].
Proof.
  intros HX Hj Hl Hx Hy. unfold elem. destruct (edivj st j l Hst Hl) as [E1 E2].
  rewrite (tS st bt nt gs gb gn) by assumption. rewrite (oS st bt nt gs gb gn) by (assumption || nia). rewrite E1, E2. reflexivity.
Qed.
Lemma elM (s : store T) X j l q : shM X -> 0 <= j < gs -> 0 <= l < st -> 0 <= q < gs * st ->
  zn (bl (s (th X (j + gs * (q / st))))) (l + st * (q mod st)) = belem s X [j * st + l; q].
Proof.
  intros HX Hj Hl Hq. unfold belem. destruct (edivj st j l Hst Hl) as [E1 E2].
  rewrite (tM st gs) by assumption. rewrite (oM st gs) by (assumption || nia). rewrite E1, E2. reflexivity.
Qed.
Lemma elP (s : store T) P q x y : wft P -> shP P -> 0 <= q < gs * st -> 0 <= x < gb * bt -> 0 <= y < gn * nt ->
  pr (fl (s (th P (q / st + gs * gc x y)))) (q mod st + st * cc x y) = pelem s P [q; x; y].
Proof.
  intros HW HP Hq Hx Hy. pose proof (shP_pair _ _ _ _ _ _ _ HP) as Hp. pose proof (shP_sq _ _ _ _ _ _ _ HP) as Hs.
  rewrite pelem_pr; [|assumption|assumption|destruct Hs as [-> _]; inbt].
  rewrite (tS st bt nt gs gb gn) by assumption. rewrite (oS st bt nt gs gb gn) by assumption. reflexivity.
Qed.

(** ** Scores and probabilities of the tensors *)
Definition xsc (s : store T) (Q K mask : tensor) (k q x y : Z) : T :=
  if belem s mask [k; q] then o_mul (flash_scale h) (dot h (fun d => elem s K [d; k; x; y]) (fun d => elem s Q [d; q; x; y]))
  else o_ninf.
Definition xpr (s : store T) (Q K mask ms : tensor) (k q x y : Z) : T := smax o_one (pelem s ms [q; x; y]) (xsc s Q K mask k q x y).
(** gradient of the probability *)
Definition xdp (s : store T) (V dA : tensor) (k q x y : Z) : T :=
  o_mul o_one (dot h (fun d => elem s V [d; k; x; y]) (fun d => elem s dA [d; q; x; y])).

Section El.
Variables (Q K mask : tensor).
Hypotheses (SQ : shX Q) (SK : shX K) (SM : shM mask).
Lemma ksc_el s j l q x y : 0 <= j < gs -> 0 <= l < st -> 0 <= q < gs * st -> 0 <= x < gb * bt -> 0 <= y < gn * nt ->
  ksc st h (fl (s (th K (j + gs * gc x y)))) (fl (s (th Q (q / st + gs * gc x y)))) (bl (s (th mask (j + gs * (q / st)))))
    l (q mod st) (cc x y) = xsc s Q K mask (j * st + l) q x y.
Proof.
  intros Hj Hl Hq Hx Hy. destruct (ediv gs st q Hst Hq) as (Q1 & Q2 & Q3). unfold ksc, xsc. rewrite elM by assumption.
  destruct (belem s mask _); [|reflexivity]. f_equal. apply dot_ext; intros d Hd; unfold col.
  - apply elX; assumption.
  - rewrite (elX s Q d (q / st) (q mod st)) by assumption. rewrite <- Q3. reflexivity.
Qed.
Lemma kpr_el s ms j l q x y : wft ms -> shP ms -> 0 <= j < gs -> 0 <= l < st -> 0 <= q < gs * st -> 0 <= x < gb * bt -> 0 <= y < gn * nt ->
  kpr st h (fl (s (th K (j + gs * gc x y)))) (fl (s (th Q (q / st + gs * gc x y)))) (bl (s (th mask (j + gs * (q / st)))))
    (fl (s (th ms (q / st + gs * gc x y)))) l (q mod st) (cc x y) = xpr s Q K mask ms (j * st + l) q x y.
Proof. intros HW HP Hj Hl Hq Hx Hy. unfold kpr, xpr. rewrite ksc_el, elP by assumption. reflexivity. Qed.
End El.

Lemma wr4 {A} (a b c d : A) v : wr [a; b; c; d] 1 v = Ok [a; v; c; d] /\ wr [a; b; c; d] 0 v = Ok [v; b; c; d].
Proof. split; reflexivity. Qed.
Lemma rdX X : shX X -> rd (t_shape X) 0 = Ok h /\ rd (t_base X) 1 = Ok st /\ rd (t_base X) 2 = Ok bt /\ rd (t_base X) 3 = Ok nt.
Proof. intros [-> ->]. repeat split. Qed.
Lemma dimsX X : shX X -> flash_dims X = Ok (h, st, BT).
Proof. intros HX. destruct (rdX X HX) as (E0 & E1 & E2 & E3). unfold flash_dims. rewrite E0, E1, E2, E3. reflexivity. Qed.
Lemma gridX X : wft X -> shX X -> rd (tt_shape (t_grid X)) 1 = Ok gs.
Proof. intros HW HX. rewrite t_grid_eq by assumption. rewrite (gX h st bt nt gs gb gn) by assumption. reflexivity. Qed.

(** ** flash_maxsumexp *)
Section Mse.
Variables (Q K mask ms tmp : tensor).
Hypotheses (WQ : wft Q) (WK : wft K) (WM : wft mask) (WS : wft ms) (WT : wft tmp).
Hypotheses (SQ : shX Q) (SK : shX K) (SM : shM mask) (SS : shP ms) (ST : shT tmp).
Let xs := list_prod (zrange N) (zrange gs).

Lemma xs_In p : In p xs <-> 0 <= fst p < N /\ 0 <= snd p < gs.
Proof. destruct p as [i j]. unfold xs. rewrite in_prod_iff, !zrange_In. reflexivity. Qed.
Lemma kb i j : 0 <= i < N -> 0 <= j < gs -> 0 <= j + gs * (i / gs) < N.
Proof.
  intros Hi Hj. assert (0 <= i / gs < gb * gn) by (unfold N in Hi; split; [apply Z.div_pos; lia|apply Z.div_lt_upper_bound; lia]).
  unfold N. nia.
Qed.
Lemma mb i j : 0 <= j < gs -> 0 <= j + gs * (i mod gs) < gs * gs.
Proof. intros Hj. pose proof (Z.mod_pos_bound i gs Hgs). nia. Qed.
Lemma tb i j : 0 <= i < N -> 0 <= j < gs -> 0 <= j + gs * i < gs * N.
Proof. intros. nia. Qed.

Lemma flash_maxsumexp_submits redux :
  flash_maxsumexp_async Q K mask ms tmp redux =
    Ok (map (fun p => flash_maxsumexp_submit st h BT (th K (snd p + gs * (fst p / gs))) (th Q (fst p))
                        (th mask (snd p + gs * (fst p mod gs))) (th ms (fst p)) (th tmp (snd p + gs * fst p))) xs).
Proof.
  unfold flash_maxsumexp_async. rewrite (dimsX Q) by assumption. bnd. rewrite t_ntiles_eq by assumption.
  rewrite (nP st bt nt gs gb gn Hst Hbt Hnt) by assumption. fold N.
  rewrite (for_flat _ _ (fun i => map (fun j => flash_maxsumexp_submit st h BT (th K (j + gs * (i / gs))) (th Q i)
                        (th mask (j + gs * (i mod gs))) (th ms i) (th tmp (j + gs * i))) (zrange gs))).
  { rewrite app_nil_l. unfold xs. rewrite (flat_map_pairs (fun i j => flash_maxsumexp_submit st h BT (th K (j + gs * (i / gs))) (th Q i)
                        (th mask (j + gs * (i mod gs))) (th ms i) (th tmp (j + gs * i)))). reflexivity. }
  intros i ts Hi. destruct (unoff_grid gs gb gn Hgs Hgb Hgn i Hi) as (x & y & U & B1 & B2 & B3 & E1 & E2).
  rewrite get_tile_handle_ok; [|assumption|rewrite (nP st bt nt gs gb gn Hst Hbt Hnt) by assumption; assumption]. bnd.
  rewrite (li_P st bt nt gs gb gn Hst Hbt Hnt) by assumption. bnd. rewrite U.
  rewrite (hX h st bt nt gs gb gn) by assumption. bnd.
  change (rd [0; i mod gs; x; y] 1) with (Ok (i mod gs)). bnd.
  change (wr (zrep 2 0) 1 (i mod gs)) with (Ok [0; i mod gs]). bnd. rewrite (gridX K) by assumption. bnd.
  destruct (for_state gs (fun j '(tmp_tile_index, k_tile_index, mask_tile_index, ts) =>
      tmp_tile_index <- wr tmp_tile_index 0 j ;;
      k_tile_index <- wr k_tile_index 1 j ;;
      mask_tile_index <- wr mask_tile_index 0 j ;;
      tmp_tile_handle <- get_tile_handle_idx tmp tmp_tile_index ;;
      k_tile_handle <- get_tile_handle_idx K k_tile_index ;;
      mask_tile_handle <- get_tile_handle_idx mask mask_tile_index ;;
      Ok (tmp_tile_index, k_tile_index, mask_tile_index,
          ts ++ [flash_maxsumexp_submit st h BT k_tile_handle (th Q (i mod gs + gs * (x + gb * y))) mask_tile_handle
                   (th ms i) tmp_tile_handle]))
    (fun j => flash_maxsumexp_submit st h BT (th K (j + gs * (i / gs))) (th Q i)
                        (th mask (j + gs * (i mod gs))) (th ms i) (th tmp (j + gs * i)))
    (fun '(a, b, c) => (exists u, a = [u; i mod gs; x; y]) /\ (exists u, b = [0; u; x; y]) /\ (exists u, c = [u; i mod gs]))
    ([0; i mod gs; x; y], [0; i mod gs; x; y], [0; i mod gs]) ts) as ([[a b] c] & _ & E).
  - lia.
  - split; [eauto|split; eauto].
  - intros j [[a b] c] ts' Hj ((u1 & ->) & (u2 & ->) & (u3 & ->)).
    exists ([j; i mod gs; x; y], [0; j; x; y], [j; i mod gs]). split; [split; [eauto|split; eauto]|].
    change (wr [u1; i mod gs; x; y] 0 j) with (Ok [j; i mod gs; x; y]). bnd.
    change (wr [0; u2; x; y] 1 j) with (Ok [0; j; x; y]). bnd.
    change (wr [u3; i mod gs] 0 j) with (Ok [j; i mod gs]). bnd.
    rewrite (hT st bt nt gs gb gn) by assumption. bnd. rewrite (hX h st bt nt gs gb gn) by assumption. bnd.
    rewrite (hM st gs) by assumption. bnd. rewrite <- E1, E2. reflexivity.
  - rewrite E, bind_Ok. reflexivity.
Qed.

Theorem flash_maxsumexp_runs redux s :
  disj Q ms -> disj K ms -> disj mask ms -> disj tmp ms ->
  stored KF s Q -> stored KF s K -> stored KB s mask -> stored KF s ms -> stored KF s tmp ->
  runs (flash_maxsumexp_async Q K mask ms tmp redux) s (fun s' =>
    (forall q x y, 0 <= q < gs * st -> 0 <= x < gb * bt -> 0 <= y < gn * nt ->
       pelem s' ms [q; x; y] = fold_left (fun v j => mse_upd (mse st (fun l => xsc s Q K mask (j * st + l) q x y)) v)
                                 (zrange gs) (pelem s ms [q; x; y])) /\
    frame [ms] s s').
Proof.
  intros D1 D2 D3 D4 S1 S2 S3 S4 S5.
  assert (Hp : pairt ms) by (eapply shP_pair; eassumption).
  assert (Hq : shS (sq ms)) by (eapply shP_sq; eassumption).
  assert (Nq : ntiles Q = N) by (apply (nX h st bt nt gs gb gn); assumption).
  assert (Nk : ntiles K = N) by (apply (nX h st bt nt gs gb gn); assumption).
  assert (Nm : ntiles mask = gs * gs) by (apply (nM st gs); assumption).
  assert (Ns : ntiles ms = N) by (apply (nP st bt nt gs gb gn); assumption).
  assert (Nt : ntiles tmp = gs * N) by (apply (nT st bt nt gs gb gn); assumption).
  eapply runs_weaken; [apply (acc_pair ms xs fst (fun _ => MRW)
    (fun p => [th K (snd p + gs * (fst p / gs)); th Q (fst p); th mask (snd p + gs * (fst p mod gs))]) (fun _ => [])
    (fun p => [th tmp (snd p + gs * fst p)])
    (fun p => flash_maxsumexp_cpu st h BT)
    (fun p b1 _ c v => mse_upd (mse st (fun l => ksc st h (fl (nth 0 b1 (BF []))) (fl (nth 1 b1 (BF []))) (bl (nth 2 b1 (BF [])))
                                  l (c mod st) (c / st))) v))|].
  - assumption.
  - assumption.
  - assumption.
  - rewrite flash_maxsumexp_submits. reflexivity.
  - intros p Hx. apply xs_In in Hx. rewrite Ns. tauto.
  - auto.
  - intros [i j] g Hx. apply xs_In in Hx. cbn [fst snd] in *. destruct Hx as [Hi Hj].
    pose proof (kb i j Hi Hj). pose proof (mb i j Hj). pose proof (tb i j Hi Hj).
    cbn [In]. intros [[<-|[<-|[<-|[]]]]|[[]|[<-|[]]]]; apply disj_notin; (assumption || congruence || lia).
  - intros; discriminate.
  - intros [i j] t d sc Hx Ht Hl Hsc. apply xs_In in Hx. cbn [fst snd] in *. destruct Hx as [Hi Hj].
    pose proof (kb i j Hi Hj) as Hk. pose proof (mb i j Hj) as Hm. pose proof (tb i j Hi Hj) as Htt.
    destruct (bufF s t K (j + gs * (i / gs)) Ht S2 ltac:(lia)) as (lk & Ek & Lk).
    destruct (bufF s t Q i Ht S1 ltac:(lia)) as (lq & Eq & Lq).
    destruct (ty_BB _ _ (buf_at s t KB mask (j + gs * (i mod gs)) Ht S3 ltac:(lia))) as (lm & Em & Lm).
    destruct sc as [|bt0 [|? ?]]; cbn [map] in Hsc; [discriminate| |discriminate].
    pose proof (S5 (j + gs * i) ltac:(lia)) as Ty. inversion Hsc as [Hsc']. rewrite Ty in Hsc'. destruct (ty_BF _ _ Hsc') as (lt & -> & Lt).
    rewrite (zX h st bt nt gs gb gn) in Lk, Lq by assumption.
    rewrite (zM st gs) in Lm by assumption. rewrite (zT st bt nt gs gb gn) in Lt by assumption.
    rewrite (zP st bt nt gs gb gn) in Hl by assumption.
    cbn [map app nth fl bl]. rewrite Ek, Eq, Em. cbn [fl bl].
    destruct (flash_maxsumexp_ok st h BT Hst Hh ltac:(unfold BT; nia) zz lk lq lm d lt) as (tmp' & E); try (unfold BT; assumption).
    exists [BF tmp']. rewrite E. split; [|reflexivity]. cbn [app].
    rewrite (zS st bt nt gs gb gn) by assumption. reflexivity.
  - intros s' _ [H1 H2]. split; [|assumption]. intros q x y Hqq Hx Hy.
    assert (Hi : inb (t_shape (sq ms)) [q; x; y]) by (destruct Hq as [-> _]; inbt).
    rewrite H1 by assumption. rewrite (tS st bt nt gs gb gn) by assumption. rewrite (oS st bt nt gs gb gn) by assumption.
    destruct (ediv gs st q Hst Hqq) as (Q1 & Q2 & Q3). pose proof (gc_bound bt nt gb gn Hbt Hnt x y Hx Hy) as G.
    set (i := q / st + gs * gc x y).
    assert (Hii : 0 <= i < N) by (apply mix_bound; assumption).
    unfold xs. rewrite filter_prod_fst; [|apply NoDup_zrange|apply zrange_In; assumption].
    rewrite fold_left_map'. apply fold_left_ext. intros v j Hj. apply zrange_In in Hj. cbn [fst snd map nth].
    f_equal. apply mse_ext; [assumption|]. intros l Hl.
    destruct (mix_div gs (q / st) (gc x y) Q1) as [M1 M2]. fold i in M1, M2. rewrite M1, M2.
    destruct (mix_div st (q mod st) (cc x y) Q2) as [M3 M4]. rewrite M3, M4.
    apply ksc_el; assumption.
Qed.
End Mse.

(** ** flash_softmax_gemm *)
Section Sg.
Variables (Q K V mask ms dst tmp : tensor).
Hypotheses (WQ : wft Q) (WK : wft K) (WV : wft V) (WM : wft mask) (WS : wft ms) (WD : wft dst) (WT : wft tmp).
Hypotheses (SQ : shX Q) (SK : shX K) (SV : shX V) (SM : shM mask) (SS : shP ms) (SD : shX dst) (ST : shT tmp).
Let xs := list_prod (zrange N) (-1 :: zrange gs).

Definition sg_task (p : Z * Z) : task T :=
  if snd p =? -1 then clear_submit (th dst (fst p))
  else flash_softmax_gemm_submit st h BT (th K (snd p + gs * (fst p / gs))) (th Q (fst p))
         (th mask (snd p + gs * (fst p mod gs))) (th ms (fst p)) (th V (snd p + gs * (fst p / gs))) (th dst (fst p)) (th tmp (snd p + gs * fst p)).

Lemma flash_softmax_gemm_submits redux :
  flash_softmax_gemm_async Q K V mask ms dst tmp redux = Ok (map sg_task xs).
Proof.
  unfold flash_softmax_gemm_async. rewrite (dimsX Q) by assumption. bnd. rewrite t_ntiles_eq by assumption.
  rewrite (nP st bt nt gs gb gn Hst Hbt Hnt) by assumption. fold N.
  rewrite (for_flat _ _ (fun i => map (fun j => sg_task (i, j)) (-1 :: zrange gs))).
  { rewrite app_nil_l. unfold xs. rewrite (flat_map_pairs (fun i j => sg_task (i, j))). f_equal. }
  intros i ts Hi. destruct (unoff_grid gs gb gn Hgs Hgb Hgn i Hi) as (x & y & U & B1 & B2 & B3 & E1 & E2).
  rewrite get_tile_handle_ok; [|assumption|rewrite (nP st bt nt gs gb gn Hst Hbt Hnt) by assumption; assumption]. bnd.
  rewrite (li_P st bt nt gs gb gn Hst Hbt Hnt) by assumption. bnd. rewrite U.
  rewrite (hX h st bt nt gs gb gn) by assumption. bnd. rewrite (hX h st bt nt gs gb gn) by assumption. bnd.
  change (rd [0; i mod gs; x; y] 1) with (Ok (i mod gs)). bnd.
  change (wr (zrep 2 0) 1 (i mod gs)) with (Ok [0; i mod gs]). bnd. cbv zeta. rewrite (gridX K) by assumption. bnd.
  rewrite <- E1.
  destruct (for_state gs (fun j '(tmp_tile_index, k_tile_index, v_tile_index, mask_tile_index, ts) =>
      tmp_tile_index <- wr tmp_tile_index 0 j ;;
      k_tile_index <- wr k_tile_index 1 j ;;
      v_tile_index <- wr v_tile_index 1 j ;;
      mask_tile_index <- wr mask_tile_index 0 j ;;
      tmp_tile_handle <- get_tile_handle_idx tmp tmp_tile_index ;;
      k_tile_handle <- get_tile_handle_idx K k_tile_index ;;
      v_tile_handle <- get_tile_handle_idx V v_tile_index ;;
      mask_tile_handle <- get_tile_handle_idx mask mask_tile_index ;;
      Ok (tmp_tile_index, k_tile_index, v_tile_index, mask_tile_index,
          ts ++ [flash_softmax_gemm_submit st h BT k_tile_handle (th Q i) mask_tile_handle
                   (th ms i) v_tile_handle (th dst i) tmp_tile_handle]))
    (fun j => sg_task (i, j))
    (fun '(a, b, b', c) => (exists u, a = [u; i mod gs; x; y]) /\ (exists u, b = [0; u; x; y]) /\ (exists u, b' = [0; u; x; y]) /\ (exists u, c = [u; i mod gs]))
    ([0; i mod gs; x; y], [0; i mod gs; x; y], [0; i mod gs; x; y], [0; i mod gs]) (ts ++ [clear_submit (th dst i)])) as ([[[a b] b'] c] & _ & E).
  - lia.
  - split; [eauto|split; [eauto|split; eauto]].
  - intros j [[[a b] b'] c] ts' Hj ((u1 & ->) & (u2 & ->) & (u3 & ->) & (u4 & ->)).
    exists ([j; i mod gs; x; y], [0; j; x; y], [0; j; x; y], [j; i mod gs]). split; [split; [eauto|split; [eauto|split; eauto]]|].
    change (wr [u1; i mod gs; x; y] 0 j) with (Ok [j; i mod gs; x; y]). bnd.
    change (wr [0; u2; x; y] 1 j) with (Ok [0; j; x; y]). bnd.
    change (wr [0; u3; x; y] 1 j) with (Ok [0; j; x; y]). bnd.
    change (wr [u4; i mod gs] 0 j) with (Ok [j; i mod gs]). bnd.
    rewrite (hT st bt nt gs gb gn) by assumption. bnd. rewrite !(hX h st bt nt gs gb gn) by assumption. bnd. bnd.
    rewrite (hM st gs) by assumption. bnd. rewrite <- E1, E2. unfold sg_task. cbn [fst snd].
    destruct (Z.eqb_spec j (-1)); [lia|]. reflexivity.
  - cbn [map]. rewrite E, bind_Ok. rewrite <- app_assoc. reflexivity.
Qed.

Theorem flash_softmax_gemm_runs redux s :
  disj Q dst -> disj K dst -> disj V dst -> disj mask dst -> disj ms dst -> disj tmp dst ->
  stored KF s Q -> stored KF s K -> stored KF s V -> stored KB s mask -> stored KF s ms -> stored KF s dst -> stored KF s tmp ->
  runs (flash_softmax_gemm_async Q K V mask ms dst tmp redux) s (fun s' =>
    (forall d q x y, 0 <= d < h -> 0 <= q < gs * st -> 0 <= x < gb * bt -> 0 <= y < gn * nt ->
       elem s' dst [d; q; x; y] = fold_left (fun v j =>
          gm o_one (o_mul o_one (dot st (fun l => elem s V [d; j * st + l; x; y]) (fun l => xpr s Q K mask ms (j * st + l) q x y))) v)
         (zrange gs) o_zero) /\
    frame [dst] s s').
Proof.
  intros D1 D2 D3 D4 D5 D6 S1 S2 S3 S4 S5 S6 S7.
  assert (Nq : ntiles Q = N) by (apply (nX h st bt nt gs gb gn); assumption).
  assert (Nk : ntiles K = N) by (apply (nX h st bt nt gs gb gn); assumption).
  assert (Nv : ntiles V = N) by (apply (nX h st bt nt gs gb gn); assumption).
  assert (Nd : ntiles dst = N) by (apply (nX h st bt nt gs gb gn); assumption).
  assert (Nm : ntiles mask = gs * gs) by (apply (nM st gs); assumption).
  assert (Ns : ntiles ms = N) by (apply (nP st bt nt gs gb gn); assumption).
  assert (Nt : ntiles tmp = gs * N) by (apply (nT st bt nt gs gb gn); assumption).
  assert (HX : forall p, In p xs -> 0 <= fst p < N /\ (snd p = -1 \/ 0 <= snd p < gs)).
  { intros [i j] Hx. unfold xs in Hx. apply in_prod_iff in Hx. cbn [In] in Hx. rewrite !zrange_In in Hx. cbn [fst snd]. intuition lia. }
  assert (HBT : 0 < BT) by (unfold BT; nia).
  eapply runs_weaken; [apply (acc_elem dst xs fst (fun p => if snd p =? -1 then MW else MRW)
    (fun p => if snd p =? -1 then [] else
       [th K (snd p + gs * (fst p / gs)); th Q (fst p); th mask (snd p + gs * (fst p mod gs)); th ms (fst p); th V (snd p + gs * (fst p / gs))])
    (fun _ => []) (fun p => if snd p =? -1 then [] else [th tmp (snd p + gs * fst p)])
    (fun p => if snd p =? -1 then clear_cpu else flash_softmax_gemm_cpu st h BT)
    (fun p b1 _ o v => if snd p =? -1 then o_zero else
       gm o_one (o_mul o_one (dot st (fun l => zn (fl (nth 4 b1 (BF []))) (cz [h; st; BT] 0 o + h * (l + st * cz [h; st; BT] 2 o)))
         (fun l => kpr st h (fl (nth 0 b1 (BF []))) (fl (nth 1 b1 (BF []))) (bl (nth 2 b1 (BF []))) (fl (nth 3 b1 (BF []))) l
                     (cz [h; st; BT] 1 o) (cz [h; st; BT] 2 o)))) v))|].
  - assumption.
  - assumption.
  - rewrite flash_softmax_gemm_submits. f_equal. apply map_ext. intros p. unfold sg_task. destruct (snd p =? -1); reflexivity.
  - intros p Hx. apply HX in Hx. rewrite Nd. tauto.
  - intros p _. destruct (snd p =? -1); auto.
  - intros [i j] g Hx. apply HX in Hx. cbn [fst snd] in *. destruct Hx as [Hi Hj].
    destruct (Z.eqb_spec j (-1)); [intros [[]|[[]|[]]]|]. destruct Hj as [Hj|Hj]; [contradiction|].
    pose proof (kb i j Hi Hj). pose proof (mb i j Hj). pose proof (tb i j Hi Hj).
    cbn [In]. intros [[<-|[<-|[<-|[<-|[<-|[]]]]]]|[[]|[<-|[]]]]; apply disj_notin; (assumption || congruence || lia).
  - intros p b1 b2 o v v' _ E. destruct (snd p =? -1); [reflexivity|discriminate].
  - intros [i j] t d sc Hx Ht Hl Hsc. apply HX in Hx. cbn [fst snd] in *. destruct Hx as [Hi Hj].
    rewrite (zX h st bt nt gs gb gn) in Hl by assumption. rewrite (zX h st bt nt gs gb gn) by assumption.
    destruct (Z.eqb_spec j (-1)) as [->|Hne].
    { destruct sc; [|discriminate]. exists []. split; [|reflexivity]. cbn [map app clear_cpu]. do 4 f_equal.
      apply list_ext; [rewrite zlen_zrep, zlen_ztab by (fold BT; nia); assumption|].
      intros o Ho. rewrite zlen_zrep in Ho by lia. rewrite zn_zrep, zn_ztab by lia. reflexivity. }
    destruct Hj as [Hj|Hj]; [contradiction|].
    pose proof (kb i j Hi Hj) as Hk. pose proof (mb i j Hj) as Hm. pose proof (tb i j Hi Hj) as Htt.
    destruct (bufF s t K (j + gs * (i / gs)) Ht S2 ltac:(lia)) as (lk & Ek & Lk).
    destruct (bufF s t V (j + gs * (i / gs)) Ht S3 ltac:(lia)) as (lv & Ev & Lv).
    destruct (bufF s t Q i Ht S1 ltac:(lia)) as (lq & Eq & Lq).
    destruct (bufF s t ms i Ht S5 ltac:(lia)) as (ls & Es & Ls).
    destruct (ty_BB _ _ (buf_at s t KB mask (j + gs * (i mod gs)) Ht S4 ltac:(lia))) as (lm & Em & Lm).
    destruct sc as [|bt0 [|? ?]]; cbn [map] in Hsc; [discriminate| |discriminate].
    pose proof (S7 (j + gs * i) ltac:(lia)) as Ty. inversion Hsc as [Hsc']. rewrite Ty in Hsc'. destruct (ty_BF _ _ Hsc') as (lt & -> & Lt).
    rewrite (zX h st bt nt gs gb gn) in Lk, Lq, Lv by assumption.
    rewrite (zM st gs) in Lm by assumption. rewrite (zT st bt nt gs gb gn) in Lt by assumption.
    rewrite (zP st bt nt gs gb gn) in Ls by assumption.
    cbn [map app nth fl bl]. rewrite Ek, Eq, Em, Ev, Es. cbn [fl bl].
    destruct (flash_softmax_gemm_ok st h BT Hst Hh HBT zz lk lq lm ls lv d lt) as (tmp' & E); try (unfold BT; assumption).
    exists [BF tmp']. rewrite E. split; [|reflexivity]. cbn [app]. do 7 f_equal. f_equal. unfold tab3. fold BT.
    apply ztab_ext. intros o Ho. destruct (cz3_inv h st BT o Hh Hst HBT Ho) as (_ & _ & _ & C). rewrite C. reflexivity.
  - intros s' _ [H1 H2]. split; [|assumption]. intros d q x y Hd Hqq Hx Hy.
    assert (Hi : inb (t_shape dst) [d; q; x; y]) by (destruct SD as [-> _]; inbt).
    rewrite H1 by assumption. rewrite (tX h st bt nt gs gb gn) by assumption. rewrite (oX h st bt nt gs gb gn) by assumption.
    destruct (ediv gs st q Hst Hqq) as (Q1 & Q2 & Q3). pose proof (gc_bound bt nt gb gn Hbt Hnt x y Hx Hy) as G.
    pose proof (cc_bound bt nt gb gn Hbt Hnt x y Hx Hy) as C. fold BT in C.
    set (i := q / st + gs * gc x y).
    assert (Hii : 0 <= i < N) by (apply mix_bound; assumption).
    unfold xs. rewrite filter_prod_fst; [|apply NoDup_zrange|apply zrange_In; assumption].
    cbn [map fold_left snd]. change (-1 =? -1) with true. cbv iota.
    rewrite fold_left_map'. apply fold_left_ext. intros v j Hj. apply zrange_In in Hj. cbn [fst snd].
    destruct (Z.eqb_spec j (-1)); [lia|]. cbn [map nth].
    destruct (mix_div gs (q / st) (gc x y) Q1) as [M1 M2]. fold i in M1, M2. rewrite M1, M2.
    destruct (cz3 h st BT d (q mod st) (cc x y) Hd Q2 C) as (C0 & C1 & C2 & _). rewrite C0, C1, C2.
    f_equal. f_equal. apply dot_ext; intros l Hl.
    + apply elX; assumption.
    + apply kpr_el; assumption.
Qed.
End Sg.
End R.
