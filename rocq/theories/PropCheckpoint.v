(** * C68: checkpoints of the optimizers *)
From Verif Require Import Base Spec Geometry Traits TraitsProofs Axis Loops Runtime Ops TensorSem KernelsElem ElemOps ElemGeneric ElemProofs OneOut AccRuns
  Sequence Serial NdRuns Concrete SubcopyOps SubcopyKernel ScatterRuns TileCopy TileOps TileProofs PropCopy NumpyIO PropNumpy PyLayers Checkpoint.
Local Open Scope Z_scope.

Section Ck.
Context {T : Type} {DT : Dflt T}.
Variables (to_half to_bf16 : T -> T).
Notation save1 := (save1 to_half to_bf16).
Notation save_moments := (save_moments to_half to_bf16).

(** ** Specification *)
(** the rounding of an element that the argument dtype asks for *)
Definition rounded (d : sdtype) : T -> T := match d with FP16 => to_half | BF16 => to_bf16 | _ => fun x => x end.
(** first and second moments of all parameters: first[0], second[0], first[1], .. *)
Definition flat {X} (l : list (X * X)) : list X := flat_map (fun p => [fst p; snd p]) l.

(** The tensors [ts] are saved, the j-th through the handles [q j]: the memory of the arrays is
    allocated, the arrays are distinct, and nothing is shared with the tensors. *)
Record saveable (s : store T) (ts : list tensor) (q : nat -> slot) : Prop := {
  sv_t : forall j t, nth_error ts j = Some t -> wf_tensor t /\ t_shape t <> [] /\ stored KF s t /\
    ty (s (sl_mem (q j))) = (KF, prodZ (t_shape t)) /\ ty (s (sl_next (q j))) = (KF, prodZ (t_shape t)) /\
    ty (s (sl_scr (q j))) = (KI, 2 * zlen (t_shape t));
  sv_sep : forall i j t, (i < List.length ts)%nat -> nth_error ts j = Some t ->
    ~ In (sl_mem (q i)) (tile_handles t) /\ ~ In (sl_next (q i)) (tile_handles t) /\ sl_next (q i) <> sl_mem (q j);
  sv_mem : forall i j, (i < j < List.length ts)%nat -> sl_mem (q i) <> sl_mem (q j)
}.
(** The tensors [ts] are loaded from the arrays [xs], the j-th through the handles [q j]. *)
Record loadable (s : store T) (xs : list ndarray) (ts : list tensor) (q : nat -> slot) : Prop := {
  ld_t : forall j x t, nth_error xs j = Some x -> nth_error ts j = Some t -> wf_tensor t /\ t_shape t <> [] /\ stored KF s t /\
    a_shape x = t_shape t /\ anew s x /\ ty (s (sl_next (q j))) = (KF, prodZ (t_shape t)) /\
    ty (s (sl_scr (q j))) = (KI, 2 * zlen (t_shape t));
  ld_sep : forall i j x t, nth_error xs i = Some x -> nth_error ts j = Some t ->
    ~ In (a_mem x) (tile_handles t) /\ ~ In (sl_next (q i)) (tile_handles t);
  ld_next : forall i j x, (i < List.length xs)%nat -> nth_error xs j = Some x -> sl_next (q i) <> a_mem x;
  ld_disj : forall i j t u, i <> j -> nth_error ts i = Some t -> nth_error ts j = Some u -> disj t u
}.

(** ** Saving *)
Fixpoint saves (d : sdtype) (q : nat -> slot) (ts : list tensor) : res (list (task T)) :=
  match ts with [] => Ok [] | t :: r => then_ (save1 d t (q O)) (saves d (fun j => q (S j)) r) end.
Fixpoint files (q : nat -> slot) (ts : list tensor) : list ndarray :=
  match ts with [] => [] | t :: r => zeros_like t (q O) :: files (fun j => q (S j)) r end.
Lemma then_assoc (a b c : res (list (task T))) : then_ (then_ a b) c = then_ a (then_ b c).
Proof.
  unfold then_. destruct a as [a|m|]; cbn [bind]; [|reflexivity|reflexivity]. destruct b as [b|m|]; cbn [bind]; [|reflexivity|reflexivity].
  destruct c as [c|m|]; cbn [bind]; [|reflexivity|reflexivity]. rewrite app_assoc. reflexivity.
Qed.
Lemma saves_eq d q ms : forall k, save_moments d q k ms = saves d (fun j => q (k + j)%nat) (flat ms).
Proof.
  induction ms as [|[m v] r IH]; intros k; [reflexivity|]. cbn [Checkpoint.save_moments flat flat_map app saves fst snd]. rewrite Nat.add_0_r, Nat.add_1_r.
  f_equal. f_equal. rewrite IH. apply (f_equal (fun g => saves d g _)). apply FunctionalExtensionality.functional_extensionality. intros j. f_equal. lia.
Qed.
Lemma files_nth ts : forall q j, nth_error (files q ts) j = option_map (fun t => zeros_like t (q j)) (nth_error ts j).
Proof. induction ts as [|t r IH]; intros q j; destruct j; try reflexivity. cbn [files nth_error]. rewrite IH. reflexivity. Qed.
Lemma files_eq l q ms : forall k, flat (file_moments l q k ms) = map (fun a => (l, a)) (files (fun j => q (k + j)%nat) (flat ms)).
Proof.
  induction ms as [|[m v] r IH]; intros k; [reflexivity|]. cbn [file_moments flat flat_map app files fst snd map]. rewrite Nat.add_0_r, Nat.add_1_r.
  f_equal. f_equal. change (flat_map (fun p => [fst p; snd p]) r) with (flat r).
  change (flat_map (fun p => [fst p; snd p]) (file_moments l q (S (S k)) r)) with (flat (file_moments l q (S (S k)) r)). rewrite IH.
  apply (f_equal (fun g => map _ (files g _))). apply FunctionalExtensionality.functional_extensionality. intros j. f_equal. lia.
Qed.

Lemma cast_runs (f : T -> T) h n (s : store T) : 0 < n -> ty (s h) = (KF, n) ->
  runs (Ok [cast_task f h]) s (fun s' => (forall k, 0 <= k < n -> zn (fl (s' h)) k = f (zn (fl (s h)) k)) /\ forall h', h' <> h -> s' h' = s h').
Proof.
  intros Hn Ht. set (D := one (mk1 [n] h)).
  assert (P : pos [n]) by (constructor; [assumption|constructor]).
  assert (W : wf_tile (mk1 [n] h)) by (apply mk1_wf; assumption).
  assert (WD : wft D) by (apply one_wf; assumption). assert (N : ntiles D = 1) by (apply one_n; assumption).
  assert (ED : tsz D 0 = n) by (unfold D; rewrite (TileProofs.one_tsz _ W); cbn; lia).
  eapply runs_weaken; [apply (acc_elem D [0] (fun i => i) (fun _ => MRW) (fun _ => []) (fun _ => []) (fun _ => [])
    (fun _ b => match b with [BF x] => Ok [BF (map f x)] | _ => UB end) (fun _ _ _ _ v => f v) s); try assumption|].
  - intros i Hi. rewrite N in Hi. assert (i = 0) by lia. subst i. rewrite ED. exact Ht.
  - reflexivity.
  - intros i [<-|[]]. lia.
  - auto.
  - intros i h' _ [[]|[[]|[]]].
  - intros i b1 b2 o v v' _ C. discriminate.
  - intros i st d sc [<-|[]] Hti Hd' Hsc. destruct sc as [|]; [|discriminate]. cbn [map app]. exists []. split; [|reflexivity].
    rewrite ED in *. do 3 f_equal. apply list_ext; [rewrite zlen_ztab by lia; unfold zlen in *; rewrite map_length; assumption|].
    intros k Hk. unfold zlen in Hk. rewrite map_length in Hk. fold (zlen d) in Hk. rewrite zn_map by assumption. rewrite zn_ztab by lia. reflexivity.
  - intros s' Hti [G1 G2]. split.
    + intros k Hk. assert (Hi : inb [n] [k]) by (constructor; [assumption|constructor]).
      specialize (G1 [k] Hi). rewrite (ScatterRuns.one_etile D WD N [k] Hi) in G1. cbn [filter Z.eqb fold_left map] in G1.
      assert (Eo : off (t_shape D) [k] = k) by (cbn; lia).
      unfold elem in G1. rewrite (ScatterRuns.one_etile D WD N [k] Hi), (ScatterRuns.one_eoff D WD N [k] Hi), Eo in G1. exact G1.
    + intros h' Hh. apply G2. intros t [<-|[]]. cbn. intuition congruence.
Qed.

Lemma aidx_inb (sh idx : list Z) : sh <> [] -> inb sh idx -> aidx idx = idx.
Proof. intros Hs Hi. inversion Hi; subst; [congruence|reflexivity]. Qed.
Lemma ashape_ne (sh : list Z) : sh <> [] -> ashape sh = sh.
Proof. destruct sh; [congruence|reflexivity]. Qed.

Lemma save1_runs d t q (s : store T) : saveable s [t] (fun _ => q) ->
  runs_nd (save1 d t q) s (fun s' =>
    (forall idx, inb (t_shape t) idx -> acell s' (zeros_like t q) idx = rounded d (elem s t idx)) /\
    (forall h, h <> sl_mem q -> h <> sl_next q -> s' h = s h)).
Proof.
  intros [H1 H2 _]. destruct (H1 O t eq_refl) as (W & Hne & St & Tm & Tn & Tc). destruct (H2 O O t ltac:(cbn; lia) eq_refl) as (S1 & S2 & S3).
  assert (R : io_ready s t (zeros_like t q) (sl_next q) (sl_scr q)) by (split; assumption).
  pose proof (prodZ_pos _ (wf_ps _ (wf_wft _ W))) as Hp.
  unfold Checkpoint.save1. eapply nd_then.
  { apply (proj1 (C67_to_array t (zeros_like t q) (sl_next q) (sl_scr q) s W)); [cbn [zeros_like a_shape]; symmetry; apply ashape_ne; assumption|exact R]. }
  intros s1 Hti [G F]. cbn [zeros_like a_mem] in F.
  assert (G' : forall idx, inb (t_shape t) idx -> acell s1 (zeros_like t q) idx = elem s t idx).
  { intros idx Hi. rewrite <- (G idx Hi). rewrite (aidx_inb _ _ Hne Hi). reflexivity. }
  assert (Dc : (half_of to_half to_bf16 d = None /\ rounded d = fun x => x) \/ half_of to_half to_bf16 d = Some (rounded d)) by (destruct d; auto).
  destruct Dc as [[-> ->]| ->].
  - apply nd_nop. split; [exact G'|exact F].
  - apply runs_runs_nd. eapply runs_weaken; [apply (cast_runs _ (sl_mem q) (prodZ (t_shape t)) s1 Hp); rewrite Hti; assumption|].
    intros s2 _ [G2 F2]. split.
    + intros idx Hi. rewrite <- (G' idx Hi). unfold acell, zeros_like. cbn [a_shape a_mem]. apply G2. apply off_bound. assumption.
    + intros h Hm Hn. rewrite F2 by assumption. apply F; assumption.
Qed.

Lemma saveable_tinv s s1 ts q : tinv s s1 -> saveable s ts q -> saveable s1 ts q.
Proof.
  intros Hti [H1 H2 H3]. split; try assumption. intros j t Hj. destruct (H1 j t Hj) as (a & b & c & d & e & f). rewrite !Hti.
  split; [assumption|]. split; [assumption|]. split; [eapply tinv_stored; eassumption|]. repeat split; assumption.
Qed.
Lemma saveable_hd s t ts q : saveable s (t :: ts) q -> saveable s [t] (fun _ => q O).
Proof.
  intros [H1 H2 H3]. split.
  - intros [|[|j]] u Hu; try discriminate. exact (H1 O u Hu).
  - intros i [|[|j]] u Hi Hu; try discriminate. apply (H2 O O u); [cbn; lia|exact Hu].
  - intros i j Hij. cbn in Hij. lia.
Qed.
Lemma saveable_tl s t ts q : saveable s (t :: ts) q -> saveable s ts (fun j => q (S j)).
Proof.
  intros [H1 H2 H3]. split.
  - intros j u Hu. exact (H1 (S j) u Hu).
  - intros i j u Hi Hu. apply (H2 (S i) (S j) u); [cbn; lia|exact Hu].
  - intros i j Hij. apply H3. cbn. lia.
Qed.

Lemma saves_runs d ts : forall q (s : store T), saveable s ts q ->
  runs_nd (saves d q ts) s (fun s' =>
    (forall j t idx, nth_error ts j = Some t -> inb (t_shape t) idx -> acell s' (zeros_like t (q j)) idx = rounded d (elem s t idx)) /\
    (forall h, (forall j, (j < List.length ts)%nat -> h <> sl_mem (q j) /\ h <> sl_next (q j)) -> s' h = s h)).
Proof.
  induction ts as [|t ts IH]; intros q s Hs; cbn [saves].
  - apply nd_nop. split; [intros [|j] u idx Hu; discriminate|reflexivity].
  - eapply nd_then; [apply (save1_runs d t (q O) s (saveable_hd _ _ _ _ Hs))|]. intros s1 Hti [G F].
    eapply nd_weaken; [apply (IH (fun j => q (S j)) s1); eapply saveable_tinv; [exact Hti|eapply saveable_tl; exact Hs]|].
    intros s2 _ [G2 F2]. split.
    + intros [|j] u idx Hu Hi.
      * cbn [nth_error] in Hu. injection Hu as <-. rewrite <- (G idx Hi). unfold acell. cbn [zeros_like a_mem]. rewrite F2; [reflexivity|].
        intros j Hj. split; [apply (sv_mem _ _ _ Hs); cbn; lia|]. intros C.
        destruct (sv_sep _ _ _ Hs (S j) O t ltac:(cbn; lia) eq_refl) as (_ & _ & X). congruence.
      * cbn [nth_error] in Hu. rewrite (G2 j u idx Hu Hi). f_equal. unfold elem. rewrite F; [reflexivity| |].
        -- intros C. destruct (sv_sep _ _ _ Hs O (S j) u ltac:(cbn; lia) Hu) as (X & _). apply X. rewrite <- C. pose proof (wf_wft _ (proj1 (sv_t _ _ _ Hs (S j) u Hu))) as Wu. apply th_In; [exact Wu|apply etile_bound; assumption].
        -- intros C. destruct (sv_sep _ _ _ Hs O (S j) u ltac:(cbn; lia) Hu) as (_ & X & _). apply X. rewrite <- C. pose proof (wf_wft _ (proj1 (sv_t _ _ _ Hs (S j) u Hu))) as Wu. apply th_In; [exact Wu|apply etile_bound; assumption].
    + intros h Hh. rewrite F2 by (intros j Hj; apply (Hh (S j)); cbn; lia). apply F; apply (Hh O); cbn; lia.
Qed.

(** ** Loading *)
Fixpoint loads (to : bool) (q : nat -> slot) (xs : list (lib * ndarray)) (ts : list tensor) : res (list (task T)) :=
  match xs with
  | [] => Ok []
  | x :: xs' => match ts with
    | [] => Throw "IndexError: list index out of range"
    | t :: ts' => then_ (load1 to t x (q O)) (loads to (fun j => q (S j)) xs' ts')
    end
  end.
Lemma loads_eq to q fs : forall ms k, load_moments (T := T) to q k fs ms = loads to (fun j => q (k + j)%nat) (flat fs) (flat ms).
Proof.
  induction fs as [|[x y] fs IH]; intros ms k; [reflexivity|]. destruct ms as [|[m v] ms]; [reflexivity|].
  cbn [load_moments flat flat_map app loads fst snd]. rewrite Nat.add_0_r, Nat.add_1_r. f_equal. f_equal. rewrite IH.
  apply (f_equal (fun g => loads to g _ _)). apply FunctionalExtensionality.functional_extensionality. intros j. f_equal. lia.
Qed.
Lemma loadable_tinv s s1 xs ts q : tinv s s1 -> loadable s xs ts q -> loadable s1 xs ts q.
Proof.
  intros Hti [H1 H2 H3 H4]. split; try assumption. intros j x t Hx Ht. destruct (H1 j x t Hx Ht) as (a & b & c & d & e & f & g). unfold anew in *. rewrite !Hti.
  split; [assumption|]. split; [assumption|]. split; [eapply tinv_stored; eassumption|]. repeat split; assumption.
Qed.
Lemma loadable_tl s x xs t ts q : loadable s (x :: xs) (t :: ts) q -> loadable s xs ts (fun j => q (S j)).
Proof.
  intros [H1 H2 H3 H4]. split.
  - intros j y u Hy Hu. exact (H1 (S j) y u Hy Hu).
  - intros i j y u Hy Hu. exact (H2 (S i) (S j) y u Hy Hu).
  - intros i j y Hi Hy. apply (H3 (S i) (S j) y); [cbn; lia|exact Hy].
  - intros i j u w Hij Hu Hw. apply (H4 (S i) (S j) u w); [lia|exact Hu|exact Hw].
Qed.

Lemma loads_runs to xs : forall ts q (s : store T), (to = true -> forall x, In x xs -> fst x = Torch) ->
  (List.length xs <= List.length ts)%nat -> loadable s (map snd xs) ts q ->
  runs_nd (loads to q xs ts) s (fun s' =>
    (forall j x t idx, nth_error xs j = Some x -> nth_error ts j = Some t -> inb (t_shape t) idx -> elem s' t idx = acell s (snd x) idx) /\
    (forall h, (forall j, (j < List.length xs)%nat -> h <> sl_next (q j)) -> (forall j t, (j < List.length xs)%nat -> nth_error ts j = Some t -> ~ In h (tile_handles t)) -> s' h = s h)).
Proof.
  induction xs as [|x xs IH]; intros ts q s Hto Hl Hs; cbn [loads].
  - apply nd_nop. split; [intros [|j] x t idx Hx; discriminate|reflexivity].
  - destruct ts as [|t ts]; [cbn in Hl; lia|]. cbn [map] in Hs.
    destruct (ld_t _ _ _ _ Hs O (snd x) t eq_refl eq_refl) as (W & Hne & St & Es & Ta & Tn & Tc).
    destruct (ld_sep _ _ _ _ Hs O O (snd x) t eq_refl eq_refl) as [S1 S2]. pose proof (ld_next _ _ _ _ Hs O O (snd x) ltac:(cbn; lia) eq_refl) as S3.
    assert (R : io_ready s t (snd x) (sl_next (q O)) (sl_scr (q O))) by (split; assumption).
    assert (E1 : load1 (T := T) to t x (q O) = from_array t (snd x) (sl_next (q O)) (sl_scr (q O))).
    { unfold load1. destruct to; [rewrite (Hto eq_refl x (or_introl eq_refl)); reflexivity|destruct (fst x); reflexivity]. }
    rewrite E1. eapply nd_then.
    { apply runs_runs_nd, (proj1 (C67_from_array t (snd x) (sl_next (q O)) (sl_scr (q O)) s W)); [rewrite ashape_ne by assumption; assumption|exact R]. }
    intros s1 Hti [G F].
    eapply nd_weaken; [apply (IH ts (fun j => q (S j)) s1); [intros Ht y Hy; apply (Hto Ht); right; assumption|cbn in Hl; lia|eapply loadable_tinv; [exact Hti|eapply loadable_tl; exact Hs]]|].
    intros s2 _ [G2 F2]. split.
    + intros [|j] y u idx Hy Hu Hi; cbn [nth_error] in Hy, Hu.
      * injection Hy as <-. injection Hu as <-. rewrite <- (aidx_inb _ _ Hne Hi), <- (G idx Hi), (aidx_inb _ _ Hne Hi). unfold elem. rewrite F2; [reflexivity| |].
        -- intros j Hj C. destruct (nth_error xs j) as [z|] eqn:Ez; [|apply nth_error_None in Ez; lia].
           assert (Ez' : nth_error (snd x :: map snd xs) (S j) = Some (snd z)) by (cbn [nth_error]; rewrite nth_error_map, Ez; reflexivity).
           destruct (ld_sep _ _ _ _ Hs (S j) O (snd z) t Ez' eq_refl) as [_ X]. apply X. rewrite <- C. apply th_In; [apply wf_wft; assumption|apply etile_bound; [apply wf_wft|]; assumption].
        -- intros j w _ Hw C. refine (ld_disj _ _ _ _ Hs O (S j) t w ltac:(lia) eq_refl Hw _ _ C). apply th_In; [apply wf_wft; assumption|apply etile_bound; [apply wf_wft|]; assumption].
      * rewrite (G2 j y u idx Hy Hu Hi). unfold acell. rewrite F; [reflexivity| |].
        -- assert (Ey : nth_error (snd x :: map snd xs) (S j) = Some (snd y)) by (cbn [nth_error]; rewrite nth_error_map, Hy; reflexivity).
           apply (ld_sep _ _ _ _ Hs (S j) O (snd y) t Ey eq_refl).
        -- assert (Ey : nth_error (snd x :: map snd xs) (S j) = Some (snd y)) by (cbn [nth_error]; rewrite nth_error_map, Hy; reflexivity).
           intros C. apply (ld_next _ _ _ _ Hs O (S j) (snd y) ltac:(cbn; lia) Ey). congruence.
    + intros h H1 H2. rewrite F2.
      * apply F; [apply (H2 O t); [cbn; lia|reflexivity]|apply (H1 O); cbn; lia].
      * intros j Hj. apply (H1 (S j)). cbn. lia.
      * intros j u Hj Hu. apply (H2 (S j) u); [cbn; lia|exact Hu].
Qed.

(** ** C68 *)
(** first_moments[0], second_moments[0], first_moments[1], .. of an optimizer *)
Definition moments_of (o : optobj T) : list tensor := flat (oo_moments o).
(** the arrays of the moments in a file, in the same order *)
Definition arrays_of (f : file T) : list ndarray := map snd (flat (ck_moments f)).
(** The moments of [o2] in the store [s'] are those of [o] in [s], rounded by [f]. *)
Definition same_moments (f : T -> T) (o o2 : optobj T) (s s' : store T) : Prop :=
  forall j t t' idx, nth_error (moments_of o) j = Some t -> nth_error (moments_of o2) j = Some t' -> inb (t_shape t) idx ->
    elem s' t' idx = f (elem s t idx).

Lemma flat_len {X} (l : list (X * X)) : List.length (flat l) = (2 * List.length l)%nat.
Proof. unfold flat. induction l as [|x l IH]; [reflexivity|]. cbn [flat_map app List.length]. rewrite IH. lia. Qed.
Lemma files_len ts : forall q, List.length (files q ts) = List.length ts.
Proof. induction ts as [|t r IH]; intros q; [reflexivity|]. cbn [files List.length]. rewrite IH. reflexivity. Qed.
Lemma map_snd_pair {X Y} (l : X) (ys : list Y) : map snd (map (fun a => (l, a)) ys) = ys.
Proof. rewrite map_map. apply map_id. Qed.

(** saving and loading through any [to_array]/[from_array] pair of lists *)
Lemma save_load to l d (o o' : optobj T) (q q' : nat -> slot) (s : store T) :
  (to = true -> l = Torch) -> List.length (oo_moments o') = List.length (oo_moments o) ->
  saveable s (moments_of o) q -> loadable s (map snd (flat (file_moments l q 0 (oo_moments o)))) (moments_of o') q' ->
  runs_nd (then_ (save_moments d q 0 (oo_moments o)) (load_moments to q' 0 (file_moments l q 0 (oo_moments o)) (oo_moments o'))) s
    (same_moments (rounded d) o o' s).
Proof.
  intros Hto Hlen Hs Hl. rewrite saves_eq, loads_eq, files_eq in *. cbn [Nat.add] in *.
  change (fun j => q j) with q in *. change (fun j => q' j) with q' in *.
  eapply nd_then; [apply (saves_runs d (moments_of o) q s Hs)|]. intros s1 Hti [G F]. fold (moments_of o) in *. fold (moments_of o') in *.
  assert (Hml : List.length (moments_of o') = List.length (moments_of o)) by (unfold moments_of; rewrite !flat_len; lia).
  eapply nd_weaken; [apply (loads_runs to (map (fun a => (l, a)) (files q (moments_of o))) (moments_of o') q' s1)|].
  - intros Ht x Hx. apply in_map_iff in Hx as (a & <- & _). apply Hto. assumption.
  - rewrite map_length, files_len. lia.
  - eapply loadable_tinv; [exact Hti|]. exact Hl.
  - intros s2 _ [G2 _] j t t' idx Ht Ht' Hi.
    assert (Hf : nth_error (map (fun a => (l, a)) (files q (moments_of o))) j = Some (l, zeros_like t (q j))).
    { rewrite nth_error_map, files_nth, Ht. reflexivity. }
    assert (Hf' : nth_error (map snd (map (fun a => (l, a)) (files q (moments_of o)))) j = Some (zeros_like t (q j))).
    { rewrite nth_error_map, Hf. reflexivity. }
    destruct (ld_t _ _ _ _ Hl j _ t' Hf' Ht') as (_ & _ & _ & Es & _). cbn [zeros_like a_shape] in Es.
    rewrite (G2 j _ t' idx Hf Ht') by (rewrite <- Es; assumption). cbn [snd]. apply G; assumption.
Qed.

(** FusedAdamW, and FusedAdam except for dtype "fp32": save_state followed by load_state, into an
    optimizer with the same shapes and any tiling, restores the moments up to the rounding asked
    for, and all of the hyperparameters and the number of the iteration. *)
Theorem C68_fused_checkpoint (w : lib) (o o' : optobj T) (d : sdtype) (q q' : nat -> slot) (s : store T) :
  d <> OtherDtype -> (w = Torch \/ d <> FP32) -> List.length (oo_moments o') = List.length (oo_moments o) ->
  let '(r1, f) := fused_save to_half to_bf16 w o d q in
  let '(r2, o2) := fused_load o' f q' in
  saveable s (moments_of o) q -> loadable s (arrays_of f) (moments_of o') q' ->
  runs_nd (then_ r1 r2) s (same_moments (rounded d) o o2 s) /\ oo_hyper o2 = oo_hyper o /\ oo_moments o2 = oo_moments o'.
Proof.
  intros Hd Hw Hlen. unfold fused_save, fused_load. cbn [ck_moments ck_hyper]. intros Hs Hl. split; [|split; reflexivity].
  unfold arrays_of in Hl. cbn [ck_moments] in Hl.
  assert (E : (match d with OtherDtype => [] | FP32 => file_moments w q 0 (oo_moments o) | _ => file_moments Torch q 0 (oo_moments o) end) = file_moments Torch q 0 (oo_moments o)).
  { destruct d; try congruence; try reflexivity. destruct Hw as [->|C]; [reflexivity|congruence]. }
  rewrite E in *. exact (save_load true Torch d o o' q q' s (fun _ => eq_refl) Hlen Hs Hl).
Qed.

(** FusedAdam with the default dtype "fp32": load_state raises. *)
Theorem C68_fused_adam_fp32_refuted (o o' : optobj T) (q q' : nat -> slot) : oo_moments o <> [] -> oo_moments o' <> [] ->
  throws (fst (fused_load o' (snd (fused_save to_half to_bf16 Numpy o FP32 q)) q')).
Proof.
  intros H1 H2. unfold fused_load, fused_save. cbn [fst snd ck_moments].
  destruct (oo_moments o) as [|[m v] r]; [congruence|]. destruct (oo_moments o') as [|[m' v'] r']; [congruence|]. eexists; reflexivity.
Qed.

(** Any other dtype: nothing is saved, nothing is loaded, no error; but the iteration number and the
    hyperparameters change. *)
Theorem C68_other_dtype_refuted (w : lib) (o o' : optobj T) (q q' : nat -> slot) :
  fused_load o' (snd (fused_save to_half to_bf16 w o OtherDtype q)) q' =
  (Ok [], {| oo_moments := oo_moments o'; oo_max := oo_max o'; oo_hyper := oo_hyper o |}).
Proof. unfold fused_load, fused_save. cbn [snd ck_moments ck_hyper load_moments]. reflexivity. Qed.

(** Adam without amsgrad *)
Theorem C68_adam_checkpoint (o o' : optobj T) (q q' : nat -> slot) (s : store T) :
  oo_max o = [] -> List.length (oo_moments o') = List.length (oo_moments o) ->
  let '(r1, f) := adam_save to_half to_bf16 o q in
  let '(r2, o2) := adam_load o' f q' in
  saveable s (moments_of o) q -> loadable s (arrays_of f) (moments_of o') q' ->
  runs_nd (then_ r1 r2) s (same_moments (fun x => x) o o2 s) /\ oo_hyper o2 = oo_hyper o /\ oo_moments o2 = oo_moments o'.
Proof.
  intros Hm Hlen. unfold adam_save, adam_load. rewrite Hm. unfold save_max. rewrite (proj2 (nth_error_None [] _)) by (cbn; lia). cbn [ck_moments ck_hyper ck_max load_max].
  intros Hs Hl. split; [|split; reflexivity]. unfold arrays_of in Hl. cbn [ck_moments] in Hl.
  assert (E0 : forall r : res (list (task T)), then_ r (Ok []) = r) by (intros [x|m|]; unfold then_; cbn [bind]; rewrite ?app_nil_r; reflexivity).
  rewrite !E0. exact (save_load false Numpy FP32 o o' q q' s ltac:(discriminate) Hlen Hs Hl).
Qed.

(** Adam with amsgrad: every saved maximum is the last one.  With the first and the last parameter of
    different shapes the file cannot be loaded. *)
Theorem C68_adam_amsgrad_refuted (o o' : optobj T) (q q' : nat -> slot) (s : store T) (m0 ml : tensor) :
  List.length (oo_moments o') = List.length (oo_moments o) -> List.length (oo_max o) = List.length (oo_moments o) ->
  nth_error (oo_max o) (List.length (oo_moments o) - 1) = Some ml -> nth_error (oo_max o') 0 = Some m0 ->
  wf_tensor m0 -> t_shape m0 <> [] -> t_shape m0 <> t_shape ml ->
  let '(r1, f) := adam_save to_half to_bf16 o q in
  loadable s (arrays_of f) (moments_of o') q' -> throws (fst (adam_load o' f q')).
Proof.
  intros Hlen Hmax Hl H0 W0 Hne Hd. unfold adam_save, save_max. rewrite Hl. cbv zeta.
  intros Hld. unfold adam_load. cbn [ck_moments ck_max fst].
  unfold arrays_of in Hld. cbn [ck_moments] in Hld. rewrite loads_eq, files_eq in *. cbn [Nat.add] in *.
  destruct (loads_runs false (map (fun a => (Numpy, a)) (files q (moments_of o))) (moments_of o') q' s ltac:(discriminate)) as (ts & Ets & _).
  { rewrite map_length, files_len. unfold moments_of. rewrite !flat_len. lia. }
  { exact Hld. }
  change (fun j => q j) with q in *. change (fun j => q' j) with q' in *. fold (moments_of o). fold (moments_of o').
  rewrite Ets. unfold then_ at 1. cbn [bind].
  destruct (oo_max o) as [|x mx]; [destruct (List.length (oo_moments o) - 1)%nat; discriminate|]. cbn [List.length seq map load_max].
  destruct (oo_max o') as [|y my]; [discriminate|]. cbn [nth_error] in H0. injection H0 as ->.
  unfold load1. cbn [fst snd]. match goal with |- context [from_array m0 ?a ?b ?c] => destruct (C67_from_array m0 a b c s W0) as [_ [m Em]] end.
  { cbn [zeros_like a_shape]. rewrite ashape_ne by assumption. congruence. }
  rewrite Em. eexists; reflexivity.
Qed.

(** A parameter without dimensions cannot be saved: np.zeros of its shape has no dimension, and
    to_array asks for one. *)
Theorem C68_scalar_refuted (w : lib) (o : optobj T) (d : sdtype) (q : nat -> slot) m v rest : oo_moments o = (m, v) :: rest ->
  wf_tensor m -> t_shape m = [] -> throws (fst (fused_save to_half to_bf16 w o d q)) /\ throws (fst (adam_save to_half to_bf16 o q)).
Proof.
  intros E W Es.
  assert (H : forall d, throws (save_moments d q 0 (oo_moments o))).
  { intros d'. rewrite E. cbn [Checkpoint.save_moments]. unfold Checkpoint.save1.
    destruct (C67_to_array m (zeros_like m (q O)) (sl_next (q O)) (sl_scr (q O)) (fun _ => BF []) W) as [_ [msg ->]]; [|eexists; reflexivity].
    cbn [zeros_like a_shape]. rewrite Es. discriminate. }
  split; [apply H|]. unfold adam_save. destruct (save_max _ _ _ _ _ _) as [r mx]. cbn [fst]. destruct (H FP32) as [msg ->]. eexists; reflexivity.
Qed.
End Ck.
