(** C80: examples/average in rounded arithmetic. *)
From Coq Require Import Reals List Arith ZArith Lra Lia Bool Classical.
Import ListNotations.
Require Import Verif.Base Verif.NatSum Verif.RBase Verif.RSum Verif.Spec_Patch Verif.Spec_Full Verif.Model_Conn Verif.Model_Refine Verif.Model_Full Verif.Model_Average
  Verif.Spec_Float Verif.Float_Base Verif.Spec_FloatGeom Verif.Spec_Average Verif.Proof_Average Verif.Proof_Average2 Verif.Proof_Average3 Verif.Proof_Average5 Verif.Prop_Average Verif.Prop_Average2
  Verif.Model_FloatLagrange Verif.Model_FloatAverage Verif.Spec_FloatAverage Verif.Proof_FloatAverage Verif.Proof_FloatAverage2 Verif.Proof_FloatAverage3 Verif.Proof_File Verif.Model_Patch.
Local Open Scope nat_scope.

(** without rounding the model is the model of C62 *)
Theorem C80_exact : forall fmt inp sv,
  (forall st, smooth_cellsf (fun x => x) sv st = smooth_cells sv st) /\ (forall st, smooth_elementf (fun x => x) sv st = smooth_element sv st) /\
  (forall s, advancef (fun x => x) sv s = advance sv s) /\ (forall node mat, simulatef (fun x => x) fmt inp sv node mat = simulate fmt inp sv node mat).
Proof.
  intros fmt inp sv. assert (A : forall s, advancef (fun x => x) sv s = advance sv s) by (intros s; reflexivity). split; [intros [a b]; reflexivity|]. split; [intros [a b]; reflexivity|]. split; [exact A|].
  assert (C : forall todo k s, cyclesf (fun x => x) fmt inp sv k todo s = cycles fmt inp sv k todo s).
  { induction todo as [|todo IH]; intros k s; [reflexivity|]. cbn [cyclesf cycles]. rewrite A. apply bind_ext. intros s1. destruct (Rle_dec _ _); [reflexivity|]. destruct (Nat.eqb _ 0); [reflexivity|].
    apply (bind_ext _ (fun s => cyclesf (fun x => x) fmt inp sv (k + 1) todo s) (fun s => cycles fmt inp sv (k + 1) todo s)). intros s2. apply IH. }
  intros node mat. unfold simulatef, simulate. apply bind_ext. intros s. rewrite C. reflexivity.
Qed.
Print Assumptions C80_exact.

(** every sound mesh lists the cells around each node in some order; there are [corner_count] of them *)
Theorem C80_lists : forall sv N X, mesh_sound sv N X -> exists A, lists_around sv A /\
  forall n, n < cm_nodes (sv_mesh sv) -> length (A n) = corner_count N (cm_cells (sv_mesh sv)) n /\ (forall c, In c (A n) -> c < cm_cells (sv_mesh sv)) /\
    forall c, c < cm_cells (sv_mesh sv) -> count_occ Nat.eq_dec (A n) c = times 8 N c n.
Proof.
  intros sv N X HM.
  set (A := fun n => match num_cells_in_node (cn_node_cells (sv_conn sv)) n with Ok k => map (fun j => match cells_in_node (cn_node_cells (sv_conn sv)) n j with Ok c => c | Err _ => 0 end) (seq 0 k) | Err _ => [] end).
  assert (HA : lists_around sv A).
  { intros n Hn. destruct (around sv N X HM n Hn) as (L & P & _). assert (E : A n = L); [|rewrite E; exact P]. destruct P as (P1 & P2). unfold A. rewrite P1.
    apply (nth_ext _ _ 0 0); [rewrite map_length, seq_length; reflexivity|]. intros j Hj. rewrite map_length, seq_length in Hj.
    rewrite (nth_indep _ 0 ((fun j => match cells_in_node (cn_node_cells (sv_conn sv)) n j with Ok c => c | Err _ => 0 end) 0)) by (rewrite map_length, seq_length; exact Hj).
    rewrite (map_nth (fun j => match cells_in_node (cn_node_cells (sv_conn sv)) n j with Ok c => c | Err _ => 0 end)). rewrite seq_nth by exact Hj. cbn [Nat.add]. rewrite P2 by exact Hj. reflexivity. }
  exists A. split; [exact HA|]. intros n Hn. destruct (A_facts sv N X A HM HA n Hn) as (A1 & A2 & A3). auto.
Qed.
Print Assumptions C80_lists.

(** for every rounding: both smoothings never fail and give the computed means, in the order of the lists, the
    element walk the same as the cell walk *)
Theorem C80_smooth : forall rnd sv N X A EC EN node mat, mesh_sound sv N X -> lists_around sv A -> elems_sound sv EC EN ->
  length node = cm_nodes (sv_mesh sv) -> length mat = cm_cells (sv_mesh sv) ->
  smooth_elementf rnd sv (node, mat) = smooth_cellsf rnd sv (node, mat) /\
  exists node' mat', smooth_cellsf rnd sv (node, mat) = Ok (node', mat') /\ length node' = cm_nodes (sv_mesh sv) /\ length mat' = cm_cells (sv_mesh sv) /\
    (forall c, c < cm_cells (sv_mesh sv) -> val mat' c = cell_meanf rnd N (val node) c) /\
    (forall n, n < cm_nodes (sv_mesh sv) -> val node' n = smoothedf rnd N A (val node) n).
Proof.
  intros rnd sv N X A EC EN node mat HM HA HE Hn Hm.
  destruct (smooth_cellsf_ok rnd sv N X A HM HA node mat Hn Hm) as (n1 & m1 & E1 & A1 & A2 & A3 & A4).
  destruct (smooth_elementf_ok rnd sv N X A HM HA EC EN node mat HE Hn Hm) as (n2 & m2 & E2 & B1 & B2 & B3 & B4).
  split.
  - rewrite E1, E2. f_equal. f_equal.
    + apply nth_ext with (d := 0%R) (d' := 0%R); [lia|]. intros n Hn'. rewrite B1 in Hn'. change (val n2 n = val n1 n). rewrite A4, B4 by exact Hn'. reflexivity.
    + apply nth_ext with (d := 0%R) (d' := 0%R); [lia|]. intros c Hc. rewrite B2 in Hc. change (val m2 c = val m1 c). rewrite A3, B3 by exact Hc. reflexivity.
  - exists n1, m1. auto.
Qed.
Print Assumptions C80_smooth.

(** for every rounding: a cycle never fails, sets the boundary values exactly and the computed mean elsewhere *)
Theorem C80_cycle : forall rnd sv N X EC EN L Q A s, let nn := cm_nodes (sv_mesh sv) in let nc := cm_cells (sv_mesh sv) in
  sound sv N X EC EN L Q -> lists_around sv A -> length (ru_node s) = nn -> length (ru_mat s) = nc ->
  exists s', advancef rnd sv s = Ok s' /\ length (ru_node s') = nn /\ length (ru_mat s') = nc /\
    (forall c, c < nc -> val (ru_mat s') c = cell_meanf rnd N (val (ru_node s)) c) /\
    (forall n, n < nn -> cycle_resultf rnd N A L Q (val (ru_node s)) (val (ru_node s')) n) /\
    ru_dumps s' = ru_dumps s /\ ru_now s' = rnd (ru_now s + rnd (1 / 1000))%R.
Proof.
  intros rnd sv N X EC EN L Q A s nn nc HS HA Hn Hm. destruct (advancef_ok rnd sv N X EC EN L Q A HS HA s Hn Hm) as (s' & E & A1 & A2 & A3 & A4 & A5 & _ & _ & _ & A6).
  exists s'. split; [exact E|]. repeat (split; [assumption|]). split; [|auto]. intros n Hn'. apply cycle_Tf. apply A4. exact Hn'.
Qed.
Print Assumptions C80_cycle.

(** the rounding error after k cycles: relative to the exact run from the absolute values of the start field (or
    any larger field), it grows at most linearly with k *)
Theorem C80_error : forall u rnd sv N X EC EN L Q M s a k, let nn := cm_nodes (sv_mesh sv) in let nc := cm_cells (sv_mesh sv) in
  (0 <= u < 1)%R -> rounds u rnd -> sound sv N X EC EN L Q -> (forall n, n < nn -> corner_count N nc n <= M) -> (INR (M + 10) * u < 1)%R -> (INR (k * (M + 10)) * u < 1)%R ->
  length (ru_node s) = nn -> length (ru_mat s) = nc -> length (ru_node a) = nn -> length (ru_mat a) = nc -> (forall n, n < nn -> (Rabs (val (ru_node s) n) <= val (ru_node a) n)%R) ->
  exists s1 s2 s3, loop k (fun _ => advancef rnd sv) s = Ok s1 /\ loop k (fun _ => advance sv) s = Ok s2 /\ loop k (fun _ => advance sv) a = Ok s3 /\
    forall n, n < nn -> (Rabs (val (ru_node s1) n - val (ru_node s2) n) <= gamma u (k * (M + 10)) * val (ru_node s3) n)%R.
Proof.
  intros u rnd sv N X EC EN L Q M s a k nn nc Hu Hr HS HM Hm Hk Hs Hs' Ha Ha' Hab. destruct (C80_lists sv N X (so_mesh _ _ _ _ _ _ _ HS)) as (A & HA & _).
  destruct (advancesf_ok rnd sv N X EC EN L Q A HS HA k s Hs Hs') as (s1 & E1 & _ & _ & V1). destruct (advances_ok sv N X EC EN L Q HS k s Hs Hs') as (s2 & E2 & _ & _ & V2). destruct (advances_ok sv N X EC EN L Q HS k a Ha Ha') as (s3 & E3 & _ & _ & V3).
  exists s1, s2, s3. repeat (split; [assumption|]). intros n Hn. rewrite V1, V2, V3 by exact Hn.
  apply (cycles_err u rnd Hu Hr sv N X A M (so_mesh _ _ _ _ _ _ _ HS) HA HM Hm L Q _ _ k Hab Hk n Hn).
Qed.
Print Assumptions C80_error.

Lemma off_sets L Q n : hit (L 0) Q n = false -> hit (L 3) Q n = false -> ~ on_patches (L 0) Q n /\ ~ on_patches (L 3) Q n.
Proof. intros E0 E3. split; intros B; apply hit_on in B; congruence. Qed.
(** if some w falls when smoothed, the error is bounded for all numbers of cycles at once *)
Theorem C80_uniform : forall u rnd sv N X EC EN L Q M s w C K k, let nn := cm_nodes (sv_mesh sv) in let nc := cm_cells (sv_mesh sv) in
  (0 <= u < 1)%R -> rounds u rnd -> sound sv N X EC EN L Q -> (forall n, n < nn -> corner_count N nc n <= M) -> (INR (M + 10) * u < 1)%R ->
  drops N nn nc L Q w C -> (gamma u (M + 10) * C <= / 2)%R ->
  length (ru_node s) = nn -> length (ru_mat s) = nc -> (10 <= K)%R -> (forall n, n < nn -> (Rabs (val (ru_node s) n) <= K)%R) ->
  exists s1 s2, loop k (fun _ => advancef rnd sv) s = Ok s1 /\ loop k (fun _ => advance sv) s = Ok s2 /\
    forall n, n < nn -> (Rabs (val (ru_node s1) n - val (ru_node s2) n) <= 2 * gamma u (M + 10) * K * w n)%R.
Proof.
  intros u rnd sv N X EC EN L Q M s w C K k nn nc Hu Hr HS HM Hm Hw HC Hs Hs' HK Hb. destruct (C80_lists sv N X (so_mesh _ _ _ _ _ _ _ HS)) as (A & HA & _).
  destruct (advancesf_ok rnd sv N X EC EN L Q A HS HA k s Hs Hs') as (s1 & E1 & _ & _ & V1). destruct (advances_ok sv N X EC EN L Q HS k s Hs Hs') as (s2 & E2 & _ & _ & V2).
  exists s1, s2. repeat (split; [assumption|]). intros n Hn. rewrite V1, V2 by exact Hn.
  apply (barrier_err u rnd Hu Hr sv N X A M (so_mesh _ _ _ _ _ _ _ HS) HA HM Hm L Q w C K _ k); try assumption.
  - intros n' Hn' E0 E3. destruct (off_sets L Q n' E0 E3) as (B0 & B3). apply (Hw n' Hn'); assumption.
  - intros n' Hn'. apply (Hw n' Hn').
Qed.
Print Assumptions C80_uniform.

(** such a w exists as soon as every node is linked through cells to a boundary node *)
Theorem C80_linked : forall N nn nc L Q, (forall c l, c < nc -> l < 8 -> N c l < nn) ->
  (forall n, n < nn -> linked N nc (fun m => on_patches (L 0) Q m \/ on_patches (L 3) Q m) n) -> exists w C, drops N nn nc L Q w C.
Proof.
  intros N nn nc L Q HN HR. destruct (Proof_FloatAverage2.barrier N nn nc (hit (L 0) Q) (hit (L 3) Q) HN) as (w & C & B1 & B2).
  - intros n Hn. assert (R := HR n Hn). clear -R. induction R as [n [F|F]|c l l' Hc Hl Hl' R IH].
    + apply linked_here. left. apply hit_on. exact F.
    + apply linked_here. right. apply hit_on. exact F.
    + apply (linked_cell N nc _ c l l'); assumption.
  - exists w, C. intros n Hn. split; [apply B2; exact Hn|]. intros N0 N3. apply B1; [exact Hn| |].
    + destruct (hit (L 0) Q n) eqn:E; [|reflexivity]. exfalso. apply N0, hit_on, E.
    + destruct (hit (L 3) Q n) eqn:E; [|reflexivity]. exfalso. apply N3, hit_on, E.
Qed.
Print Assumptions C80_linked.

(** order and bounds, for every monotone rounding *)
Theorem C80_ordered : forall rnd sv N X EC EN L Q s t k, let nn := cm_nodes (sv_mesh sv) in
  monotone rnd -> sound sv N X EC EN L Q -> length (ru_node s) = nn -> length (ru_mat s) = cm_cells (sv_mesh sv) -> length (ru_node t) = nn -> length (ru_mat t) = cm_cells (sv_mesh sv) ->
  (forall n, n < nn -> (val (ru_node s) n <= val (ru_node t) n)%R) ->
  exists s' t', loop k (fun _ => advancef rnd sv) s = Ok s' /\ loop k (fun _ => advancef rnd sv) t = Ok t' /\
    forall n, n < nn -> (val (ru_node s') n <= val (ru_node t') n)%R.
Proof.
  intros rnd sv N X EC EN L Q s t k nn Hmono HS Hs1 Hs2 Ht1 Ht2 H. destruct (C80_lists sv N X (so_mesh _ _ _ _ _ _ _ HS)) as (A & HA & _).
  destruct (advancesf_ok rnd sv N X EC EN L Q A HS HA k s Hs1 Hs2) as (s' & E & _ & _ & V). destruct (advancesf_ok rnd sv N X EC EN L Q A HS HA k t Ht1 Ht2) as (t' & E' & _ & _ & V').
  exists s', t'. split; [exact E|]. split; [exact E'|]. intros n Hn. rewrite V, V' by exact Hn. apply (itf_le rnd Hmono sv N X A L Q (so_mesh _ _ _ _ _ _ _ HS) HA k); assumption.
Qed.
Print Assumptions C80_ordered.

Theorem C80_range : forall rnd sv N X EC EN L Q s lo hi k, let nn := cm_nodes (sv_mesh sv) in let nc := cm_cells (sv_mesh sv) in
  monotone rnd -> sound sv N X EC EN L Q -> length (ru_node s) = nn -> length (ru_mat s) = nc -> (lo <= 0)%R -> (10 <= hi)%R ->
  (forall n, n < nn -> keeps_below rnd (corner_count N nc n) lo /\ keeps_above rnd (corner_count N nc n) hi) ->
  (forall n, n < nn -> (lo <= val (ru_node s) n <= hi)%R) ->
  exists s', loop k (fun _ => advancef rnd sv) s = Ok s' /\ forall n, n < nn -> (lo <= val (ru_node s') n <= hi)%R.
Proof.
  intros rnd sv N X EC EN L Q s lo hi k nn nc Hmono HS Hs1 Hs2 Hlo Hhi HK H. destruct (C80_lists sv N X (so_mesh _ _ _ _ _ _ _ HS)) as (A & HA & _).
  destruct (advancesf_ok rnd sv N X EC EN L Q A HS HA k s Hs1 Hs2) as (s' & E & _ & _ & V). exists s'. split; [exact E|]. intros n Hn. rewrite V by exact Hn.
  apply (itf_bounds rnd Hmono sv N X A L Q (so_mesh _ _ _ _ _ _ _ HS) HA lo hi); assumption.
Qed.
Print Assumptions C80_range.

(** binary64 arithmetic keeps [0, 10] where at most eight cell corners meet *)
Theorem C80_range64 : forall sv N X EC EN L Q s k, let nn := cm_nodes (sv_mesh sv) in let nc := cm_cells (sv_mesh sv) in
  sound sv N X EC EN L Q -> (forall n, n < nn -> corner_count N nc n <= 8) -> length (ru_node s) = nn -> length (ru_mat s) = nc -> (forall n, n < nn -> (0 <= val (ru_node s) n <= 10)%R) ->
  exists s', loop k (fun _ => advancef binary64 sv) s = Ok s' /\ forall n, n < nn -> (0 <= val (ru_node s') n <= 10)%R.
Proof.
  intros sv N X EC EN L Q s k nn nc HS H8 Hs1 Hs2 H. apply (C80_range binary64 sv N X EC EN L Q s 0 10 k b64_mono HS Hs1 Hs2); [lra|lra| |exact H].
  intros n Hn. split; [apply zero_below|apply ten_above, H8, Hn].
Qed.
Print Assumptions C80_range64.

(** the start field of the example *)
Lemma start_facts sv N X EC EN L Q node : sound sv N X EC EN L Q -> apply_boundary sv (repeat 0%R (cm_nodes (sv_mesh sv))) = Ok node ->
  length node = cm_nodes (sv_mesh sv) /\ forall n, n < cm_nodes (sv_mesh sv) -> (on_patches (L 0) Q n /\ val node n = 10%R) \/ (~ on_patches (L 0) Q n /\ val node n = 0%R).
Proof.
  intros HS Ea. destruct (apply_boundary_ok sv L Q (repeat 0%R (cm_nodes (sv_mesh sv))) (so_sets _ _ _ _ _ _ _ HS) (repeat_length _ _)) as (node' & E & L1 & H1). rewrite Ea in E. injection E as <-.
  split; [exact L1|]. intros n Hn. destruct (H1 n Hn) as [(Q1 & E1)|[(Q1 & Q2 & E1)|(Q1 & Q2 & E1)]]; [left; auto|right; auto|right; split; [exact Q1|]]. rewrite E1. unfold val. apply nth_repeat.
Qed.
Lemma start_rises sv N X EC EN L Q A node n : sound sv N X EC EN L Q -> lists_around sv A -> apply_boundary sv (repeat 0%R (cm_nodes (sv_mesh sv))) = Ok node ->
  (forall m, m < cm_nodes (sv_mesh sv) -> corner_count N (cm_cells (sv_mesh sv)) m <= 8) -> n < cm_nodes (sv_mesh sv) -> (0 <= val node n <= 10)%R /\ (val node n <= Tf binary64 N L Q A (val node) n)%R.
Proof.
  intros HS HA Ea H8 Hn. destruct (start_facts sv N X EC EN L Q node HS Ea) as (_ & F).
  assert (B : forall m, m < cm_nodes (sv_mesh sv) -> (0 <= val node m <= 10)%R) by (intros m Hm; destruct (F m Hm) as [(_ & ->)|(_ & ->)]; lra). split; [apply B; exact Hn|].
  destruct (F n Hn) as [(Q1 & ->)|(Q1 & ->)].
  - unfold Tf. apply hit_on in Q1. rewrite Q1. lra.
  - apply (Tf_bounds binary64 b64_mono sv N X A L Q (so_mesh _ _ _ _ _ _ _ HS) HA 0 10); try assumption; try lra; [apply zero_below|apply ten_above, H8, Hn].
Qed.
(** no node value ever falls from one cycle to the next *)
Theorem C80_rising : forall sv N X EC EN L Q node s k, let nn := cm_nodes (sv_mesh sv) in let nc := cm_cells (sv_mesh sv) in
  sound sv N X EC EN L Q -> (forall n, n < nn -> corner_count N nc n <= 8) -> apply_boundary sv (repeat 0%R nn) = Ok node -> ru_node s = node -> length (ru_mat s) = nc ->
  exists s1 s2, loop k (fun _ => advancef binary64 sv) s = Ok s1 /\ advancef binary64 sv s1 = Ok s2 /\
    forall n, n < nn -> (0 <= val (ru_node s1) n <= val (ru_node s2) n)%R /\ (val (ru_node s2) n <= 10)%R.
Proof.
  intros sv N X EC EN L Q node s k nn nc HS H8 Ea En Hm. destruct (C80_lists sv N X (so_mesh _ _ _ _ _ _ _ HS)) as (A & HA & _). assert (L1 := proj1 (start_facts sv N X EC EN L Q node HS Ea)). rewrite <- En in L1.
  destruct (advancesf_ok binary64 sv N X EC EN L Q A HS HA k s L1 Hm) as (s1 & E1 & A1 & A2 & A3). destruct (advancesf_ok binary64 sv N X EC EN L Q A HS HA (S k) s L1 Hm) as (s2 & E2 & _ & _ & B3).
  exists s1, s2. split; [exact E1|]. rewrite loop_succ, E1 in E2. split; [exact E2|]. intros n Hn. rewrite A3, B3 by exact Hn.
  assert (St : forall n, n < nn -> (0 <= val (ru_node s) n <= 10)%R /\ (val (ru_node s) n <= Tf binary64 N L Q A (val (ru_node s)) n)%R) by (intros m Hm'; rewrite En; eapply start_rises; eassumption).
  assert (Bk : forall j n, n < nn -> (0 <= itf binary64 N L Q A j (val (ru_node s)) n <= 10)%R).
  { intros j. apply (itf_bounds binary64 b64_mono sv N X A L Q (so_mesh _ _ _ _ _ _ _ HS) HA 0 10); [lra|lra| |intros m Hm'; apply St, Hm']. intros m Hm'. split; [apply zero_below|apply ten_above, H8, Hm']. }
  split; [split; [apply Bk, Hn|]|apply Bk, Hn]. apply (itf_rising binary64 b64_mono sv N X A L Q (so_mesh _ _ _ _ _ _ _ HS) HA); [intros m Hm'; apply St, Hm'|exact Hn].
Qed.
Print Assumptions C80_rising.

(** so after finitely many cycles the run stands still, at a field that a cycle does not change; with [drops] it
    is close to the exact rest field of C62_converges *)
Theorem C80_settles : forall sv N X EC EN L Q A node s, let nn := cm_nodes (sv_mesh sv) in let nc := cm_cells (sv_mesh sv) in
  sound sv N X EC EN L Q -> lists_around sv A -> (forall n, n < nn -> corner_count N nc n <= 8) -> apply_boundary sv (repeat 0%R nn) = Ok node -> ru_node s = node -> length (ru_mat s) = nc ->
  exists K r, (forall n, n < nn -> cycle_resultf binary64 N A L Q r r n /\ (0 <= r n <= 10)%R) /\
    (forall k, K <= k -> exists s', loop k (fun _ => advancef binary64 sv) s = Ok s' /\ forall n, n < nn -> val (ru_node s') n = r n) /\
    forall w C h, drops N nn nc L Q w C -> (gamma u64 18 * C <= / 2)%R -> (forall n, n < nn -> cycle_result N nc L Q h h n) ->
      (forall n, n < nn -> linked N nc (fun m => on_patches (L 0) Q m \/ on_patches (L 3) Q m) n) ->
      forall n, n < nn -> (Rabs (r n - h n) <= 20 * gamma u64 18 * w n)%R.
Proof.
  intros sv N X EC EN L Q A node s nn nc HS HA H8 Ea En Hm. assert (L1 := proj1 (start_facts sv N X EC EN L Q node HS Ea)). rewrite <- En in L1.
  assert (HMS := so_mesh _ _ _ _ _ _ _ HS). set (f := val (ru_node s)). set (F := fun j => itf binary64 N L Q A j f).
  assert (St : forall n, n < nn -> (0 <= f n <= 10)%R /\ (f n <= Tf binary64 N L Q A f n)%R) by (intros m Hm'; unfold f; rewrite En; eapply start_rises; eassumption).
  assert (Bk : forall j n, n < nn -> (0 <= F j n <= 10)%R).
  { intros j. apply (itf_bounds binary64 b64_mono sv N X A L Q HMS HA 0 10); [lra|lra| |intros m Hm'; apply St, Hm']. intros m Hm'. split; [apply zero_below|apply ten_above, H8, Hm']. }
  assert (Rk : forall j n, n < nn -> (F j n <= F (S j) n)%R) by (intros j; apply (itf_rising binary64 b64_mono sv N X A L Q HMS HA); intros m Hm'; apply St, Hm').
  assert (Fl : forall j n, n < nn -> binary64 (F j n) = F j n).
  { assert (H10 : binary64 10 = 10%R). { assert (Z := ten_kept 1 ltac:(lia) ltac:(lia)). rewrite <- Z at 1. unfold meanf at 1. rewrite sumf_b64. exact Z. }
    intros j n Hn. destruct j as [|j].
    - unfold F. change (binary64 (f n) = f n). unfold f. rewrite En. destruct (proj2 (start_facts sv N X EC EN L Q node HS Ea) n Hn) as [(_ & ->)|(_ & ->)]; [exact H10|exact b64_0].
    - change (F (S j) n) with (Tf binary64 N L Q A (F j) n). unfold Tf. destruct (hit (L 0) Q n); [exact H10|]. destruct (hit (L 3) Q n); [exact b64_0|]. unfold smoothedf, node_meanf, meanf. apply sumf_b64. }
  destruct (settles_all nn (fun k n => F k n) 10 Rk Bk Fl) as (K & HK). exists K, (F K).
  assert (Run : forall k, exists s', loop k (fun _ => advancef binary64 sv) s = Ok s' /\ forall n, n < nn -> val (ru_node s') n = F k n).
  { intros k. destruct (advancesf_ok binary64 sv N X EC EN L Q A HS HA k s L1 Hm) as (s' & E & _ & _ & V). exists s'. auto. }
  split; [|split].
  - intros n Hn. split; [|apply Bk, Hn]. apply cycle_Tf. change (Tf binary64 N L Q A (F K) n) with (F (S K) n). symmetry. apply HK; [lia|exact Hn].
  - intros k Hk. destruct (Run k) as (s' & E & V). exists s'. split; [exact E|]. intros n Hn. rewrite V by exact Hn. apply HK; assumption.
  - intros w C h Hw HC Hh HR n Hn. assert (U := u64_range).
    assert (H18 : (INR (8 + 10) * u64 < 1)%R). { unfold u64. replace (INR (8 + 10)) with 18%R by (rewrite INR_IZR_INZ; reflexivity). assert (64 <= 2 ^ 53)%R by (replace (2 ^ 53)%R with (64 * 2 ^ 47)%R by (replace 64%R with (2 ^ 6)%R by ring; rewrite <- pow_add; reflexivity); assert (1 <= 2 ^ 47)%R by (apply pow_R1_Rle; lra); lra). assert (/ 2 ^ 53 <= / 64)%R by (apply Rinv_le_contravar; lra). lra. }
    assert (HC' : (gamma u64 (8 + 10) * C <= / 2)%R) by exact HC.
    destruct (C62_converges sv N X EC EN L Q HS HR) as (h0 & _ & Uq & Cv). destruct (Cv s L1 Hm) as (run_ & Er & Lim).
    assert (Eh : h n = h0 n) by (apply Uq; assumption). rewrite Eh. specialize (Lim n Hn).
    assert (B : forall k, K <= k -> (Rabs (F K n - val (ru_node (run_ k)) n) <= 20 * gamma u64 18 * w n)%R).
    { intros k Hk. destruct (C80_uniform u64 binary64 sv N X EC EN L Q 8 s w C 10 k) as (s1 & s2 & E1 & E2 & D); try assumption.
      - lra.
      - exact binary64_rounds.
      - lra.
      - intros m Hm'. rewrite Rabs_pos_eq; apply St, Hm'.
      - destruct (Run k) as (s1' & E1' & V1). rewrite E1' in E1. injection E1 as ->. rewrite Er in E2. injection E2 as ->. specialize (D n Hn). rewrite V1, (HK k n Hk Hn) in D by exact Hn. change (8 + 10) with 18 in D. lra. }
    apply Rnot_lt_le. intros Lt. destruct (Lim (Rabs (F K n - h0 n) - 20 * gamma u64 18 * w n)%R ltac:(lra)) as (K2 & H2). specialize (H2 (Nat.max K K2) ltac:(lia)). specialize (B (Nat.max K K2) ltac:(lia)). unfold R_dist in H2.
    assert (T := Rabs_triang (F K n - val (ru_node (run_ (Nat.max K K2))) n) (val (ru_node (run_ (Nat.max K K2))) n - h0 n)).
    replace (F K n - val (ru_node (run_ (Nat.max K K2))) n + (val (ru_node (run_ (Nat.max K K2))) n - h0 n))%R with (F K n - h0 n)%R in T by ring. lra.
Qed.
Print Assumptions C80_settles.
