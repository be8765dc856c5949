(** C62: the diffusion example. *)
From Coq Require Import Reals List Arith ZArith Lra Lia Sorted Bool.
Import ListNotations.
Require Import Verif.Base Verif.NatSum Verif.RBase Verif.RSum Verif.Proof_High3 Verif.Spec_Patch Verif.Spec_High Verif.Spec_Full Verif.Model_Geom Verif.Model_Conn Verif.Model_Refine Verif.Model_Full
  Verif.Proof_Full Verif.Proof_Full4 Verif.Prop_High Verif.Prop_Full Verif.Prop_Full2 Verif.Model_Average Verif.Spec_Average Verif.Proof_Average Verif.Proof_Average2 Verif.Proof_Average3
  Verif.Proof_Average4 Verif.Proof_Average5 Verif.Proof_Average6 Verif.Model_Patch.
Local Open Scope nat_scope.

(** ---- one smoothing step ---- *)

(** smooth_cells never fails on a mesh with its incidence lists; afterwards every cell holds the mean of the old
    values of its eight corners, every node the mean over the cells around it of these *)
Theorem C62_smooth_cells : forall sv N X node mat, mesh_sound sv N X ->
  length node = cm_nodes (sv_mesh sv) -> length mat = cm_cells (sv_mesh sv) ->
  exists node' mat', smooth_cells sv (node, mat) = Ok (node', mat') /\
    length node' = cm_nodes (sv_mesh sv) /\ length mat' = cm_cells (sv_mesh sv) /\
    (forall c, c < cm_cells (sv_mesh sv) -> val mat' c = cell_mean N (val node) c) /\
    (forall n, n < cm_nodes (sv_mesh sv) -> val node' n = smoothed N (cm_cells (sv_mesh sv)) (val node) n).
Proof. intros sv N X node mat HM Hn Hm. exact (smooth_cells_ok sv N X HM node mat Hn Hm). Qed.
Print Assumptions C62_smooth_cells.

(** walking over the elements instead gives the same, although shared nodes are averaged several times *)
Theorem C62_smooth_element : forall sv N X EC EN node mat, mesh_sound sv N X -> elems_sound sv EC EN ->
  length node = cm_nodes (sv_mesh sv) -> length mat = cm_cells (sv_mesh sv) ->
  smooth_element sv (node, mat) = smooth_cells sv (node, mat) /\
  exists node' mat', smooth_element sv (node, mat) = Ok (node', mat') /\
    length node' = cm_nodes (sv_mesh sv) /\ length mat' = cm_cells (sv_mesh sv) /\
    (forall c, c < cm_cells (sv_mesh sv) -> val mat' c = cell_mean N (val node) c) /\
    (forall n, n < cm_nodes (sv_mesh sv) -> val node' n = smoothed N (cm_cells (sv_mesh sv)) (val node) n).
Proof.
  intros sv N X EC EN node mat HM HE Hn Hm.
  destruct (smooth_cells_ok sv N X HM node mat Hn Hm) as (n1 & m1 & E1 & A1 & A2 & A3 & A4).
  destruct (smooth_element_ok sv N X HM EC EN node mat HE Hn Hm) as (n2 & m2 & E2 & B1 & B2 & B3 & B4).
  split.
  - rewrite E1, E2. f_equal. f_equal.
    + apply nth_ext with (d := 0%R) (d' := 0%R); [lia|]. intros n Hn'. rewrite B1 in Hn'. change (val n2 n = val n1 n). rewrite A4, B4 by exact Hn'. reflexivity.
    + apply nth_ext with (d := 0%R) (d' := 0%R); [lia|]. intros c Hc. rewrite B2 in Hc. change (val m2 c = val m1 c). rewrite A3, B3 by exact Hc. reflexivity.
  - exists n2, m2. split; [exact E2|]. repeat (split; [assumption|]). exact B4.
Qed.
Print Assumptions C62_smooth_element.

(** the smoothing step keeps constants at every node of a cell, bounds and the order of fields, and the sum of
    the nodal values weighted by the number of cell corners at the node *)
Theorem C62_smoothing_properties : forall N nn nc, (forall c l, c < nc -> l < 8 -> N c l < nn) ->
  (forall a n c l, c < nc -> l < 8 -> N c l = n -> smoothed N nc (fun _ => a) n = a) /\
  (forall f lo hi n c l, c < nc -> l < 8 -> N c l = n -> (forall m, m < nn -> (lo <= f m <= hi)%R) -> (lo <= smoothed N nc f n <= hi)%R) /\
  (forall f g n, (forall m, m < nn -> (f m <= g m)%R) -> (smoothed N nc f n <= smoothed N nc g n)%R) /\
  (forall f, rsum nn (fun n => INR (corner_count N nc n) * smoothed N nc f n)%R = rsum nn (fun n => INR (corner_count N nc n) * f n)%R).
Proof.
  intros N nn nc HN. split; [|split; [|split]].
  - intros a n c l Hc Hl E. apply smoothed_const. eapply count_pos; eassumption.
  - intros f lo hi n c l Hc Hl E H. apply (smoothed_bounds N nn nc HN); [eapply count_pos; eassumption|exact H].
  - intros f g n H. apply (smoothed_le N nn nc HN). exact H.
  - intros f. apply (conserved N nn nc HN).
Qed.
Print Assumptions C62_smoothing_properties.

(** ---- boundary conditions ---- *)

(** apply_boundary writes 10 at the corners of the patches of set 0, 0 at those of set 3 that are not in set 0,
    and nothing else *)
Theorem C62_apply_boundary : forall sv L Q node, sets_sound sv L Q -> length node = cm_nodes (sv_mesh sv) ->
  exists node', apply_boundary sv node = Ok node' /\ length node' = cm_nodes (sv_mesh sv) /\
    forall n, n < cm_nodes (sv_mesh sv) ->
      (on_patches (L 0) Q n -> val node' n = 10%R) /\
      (~ on_patches (L 0) Q n -> on_patches (L 3) Q n -> val node' n = 0%R) /\
      (~ on_patches (L 0) Q n -> ~ on_patches (L 3) Q n -> val node' n = val node n).
Proof.
  intros sv L Q node HS Hl. destruct (apply_boundary_ok sv L Q node HS Hl) as (node' & E & B1 & B2). exists node'. split; [exact E|]. split; [exact B1|].
  intros n Hn. destruct (B2 n Hn) as [(C1 & C2)|[(C1 & C2 & C3)|(C1 & C2 & C3)]]; repeat split; intros; try contradiction; assumption.
Qed.
Print Assumptions C62_apply_boundary.

(** generate_bcs: set s holds the boundary patches with their centre within 1e-8 of surface s *)
Theorem C62_generate_bcs : forall m P bcs N X pt, cdescribes m N X -> patches_right P (cm_cells m) N pt -> bcs <> [] ->
  exists b L Q, generate_bcs m P bcs = Ok b /\
    forall s tag v, nth_error bcs s = Some (tag, v) ->
      presents (num_bdy_patches_in_set b s) (bdy_patches_in_set b s) (L s) /\ patch_corners P (cm_nodes m) (L s) Q /\
      (forall n, on_patches (L s) Q n <-> near_surface N X (cm_cells m) pt tag v n).
Proof. intros m P bcs N X pt HM HP Hne. exact (generate_bcs_ok m P bcs N X pt HM HP Hne). Qed.
Print Assumptions C62_generate_bcs.

(** ---- cycles ---- *)

Theorem C62_cycle : forall sv N X EC EN L Q s, let nn := cm_nodes (sv_mesh sv) in let nc := cm_cells (sv_mesh sv) in
  sound sv N X EC EN L Q -> length (ru_node s) = nn -> length (ru_mat s) = nc ->
  exists s', advance sv s = Ok s' /\ length (ru_node s') = nn /\ length (ru_mat s') = nc /\
    (forall c, c < nc -> val (ru_mat s') c = cell_mean N (val (ru_node s)) c) /\
    (forall n, n < nn -> cycle_result N nc L Q (val (ru_node s)) (val (ru_node s')) n) /\
    ru_dumps s' = ru_dumps s /\ ru_now s' = (ru_now s + 1 / 1000)%R.
Proof.
  intros sv N X EC EN L Q s nn nc HS Hn Hm. destruct (advance_ok sv N X EC EN L Q HS s Hn Hm) as (s' & E & A1 & A2 & A3 & A4 & A5 & _ & _ & _ & A6).
  exists s'. split; [exact E|]. repeat (split; [assumption|]). split; [|auto]. intros n Hn'. apply (proj2 (cycle_T sv N L Q _ _ n)). apply A4. exact Hn'.
Qed.
Print Assumptions C62_cycle.

(** any number of cycles succeeds and keeps every node value within the initial bounds and the boundary values *)
Theorem C62_max_principle : forall sv N X EC EN L Q s lo hi k, let nn := cm_nodes (sv_mesh sv) in
  sound sv N X EC EN L Q -> length (ru_node s) = nn -> length (ru_mat s) = cm_cells (sv_mesh sv) ->
  (forall n, n < nn -> (lo <= val (ru_node s) n <= hi)%R) ->
  exists s', loop k (fun _ => advance sv) s = Ok s' /\ forall n, n < nn -> (Rmin lo 0 <= val (ru_node s') n <= Rmax hi 10)%R.
Proof.
  intros sv N X EC EN L Q s lo hi k nn HS Hn Hm Hb. destruct (advances_ok sv N X EC EN L Q HS k s Hn Hm) as (s' & E & _ & _ & A3). exists s'. split; [exact E|].
  intros n Hn'. rewrite A3 by exact Hn'. apply (it_bounds N nn (cm_cells (sv_mesh sv)) _ _ (nodes_in sv N X EC EN L Q HS)); [apply Rmin_r|apply Rmax_r| |exact Hn'].
  intros m Hm'. specialize (Hb m Hm'). assert (A := Rmin_l lo 0). assert (B := Rmax_l hi 10). lra.
Qed.
Print Assumptions C62_max_principle.

(** two runs whose start fields are ordered stay ordered *)
Theorem C62_ordered_runs : forall sv N X EC EN L Q s t k, let nn := cm_nodes (sv_mesh sv) in
  sound sv N X EC EN L Q -> length (ru_node s) = nn -> length (ru_mat s) = cm_cells (sv_mesh sv) -> length (ru_node t) = nn -> length (ru_mat t) = cm_cells (sv_mesh sv) ->
  (forall n, n < nn -> (val (ru_node s) n <= val (ru_node t) n)%R) ->
  exists s' t', loop k (fun _ => advance sv) s = Ok s' /\ loop k (fun _ => advance sv) t = Ok t' /\
    forall n, n < nn -> (val (ru_node s') n <= val (ru_node t') n)%R.
Proof.
  intros sv N X EC EN L Q s t k nn HS Hs1 Hs2 Ht1 Ht2 H. destruct (advances_ok sv N X EC EN L Q HS k s Hs1 Hs2) as (s' & E & _ & _ & A). destruct (advances_ok sv N X EC EN L Q HS k t Ht1 Ht2) as (t' & E' & _ & _ & A').
  exists s', t'. split; [exact E|]. split; [exact E'|]. intros n Hn. rewrite A, A' by exact Hn. apply (it_le N nn (cm_cells (sv_mesh sv)) _ _ (nodes_in sv N X EC EN L Q HS)); assumption.
Qed.
Print Assumptions C62_ordered_runs.

(** from the start field of the example (zeros, then the boundary values) no node value ever falls from one
    cycle to the next, and all stay in [0, 10] *)
Theorem C62_rising : forall sv N X EC EN L Q node s k, let nn := cm_nodes (sv_mesh sv) in
  sound sv N X EC EN L Q -> apply_boundary sv (repeat 0%R nn) = Ok node -> ru_node s = node -> length (ru_mat s) = cm_cells (sv_mesh sv) ->
  exists s1 s2, loop k (fun _ => advance sv) s = Ok s1 /\ advance sv s1 = Ok s2 /\
    forall n, n < nn -> (0 <= val (ru_node s1) n <= val (ru_node s2) n)%R /\ (val (ru_node s2) n <= 10)%R.
Proof.
  intros sv N X EC EN L Q node s k nn HS Ea En Hm.
  destruct (apply_boundary_ok sv L Q (repeat 0%R nn) (so_sets _ _ _ _ _ _ _ HS) (repeat_length _ _)) as (node' & E & L1 & H1). fold nn in E. rewrite Ea in E. injection E as <-. rewrite <- En in L1, H1.
  destruct (advances_ok sv N X EC EN L Q HS k s L1 Hm) as (s1 & E1 & A1 & A2 & A3). destruct (advance_ok sv N X EC EN L Q HS s1 A1 A2) as (s2 & E2 & _ & _ & _ & B4 & _).
  exists s1, s2. split; [exact E1|]. split; [exact E2|]. set (b0 := hit (L 0) Q) in *. set (b3 := hit (L 3) Q) in *. assert (HN := nodes_in sv N X EC EN L Q HS). fold nn in HN.
  assert (Z : forall n, n < nn -> val (repeat 0%R nn) n = 0%R) by (intros n Hn; unfold val; apply nth_repeat).
  assert (F0 : forall n, n < nn -> (0 <= val (ru_node s) n <= 10)%R). { intros n Hn. destruct (H1 n Hn) as [(_ & ->)|[(_ & _ & ->)|(_ & _ & ->)]]; [lra|lra|rewrite Z by exact Hn; lra]. }
  assert (Bk : forall j n, n < nn -> (0 <= it N (cm_cells (sv_mesh sv)) b0 b3 j (val (ru_node s)) n <= 10)%R) by (intros j; apply (it_bounds N nn _ _ _ HN); [lra|lra|exact F0]).
  assert (Rs : forall n, n < nn -> (val (ru_node s) n <= T N (cm_cells (sv_mesh sv)) b0 b3 (val (ru_node s)) n)%R).
  { intros n Hn. destruct (H1 n Hn) as [(Q1 & ->)|[(Q1 & Q2 & ->)|(Q1 & Q2 & ->)]].
    - apply hit_on in Q1. unfold T. fold b0 in Q1. rewrite Q1. lra.
    - apply (T_bounds N nn _ _ _ HN 0 10); [lra|lra|exact F0].
    - rewrite Z by exact Hn. apply (T_bounds N nn _ _ _ HN 0 10); [lra|lra|exact F0]. }
  intros n Hn. assert (V2 : val (ru_node s2) n = it N (cm_cells (sv_mesh sv)) b0 b3 (S k) (val (ru_node s)) n).
  { rewrite B4 by exact Hn. rewrite it_S. apply (T_ext N nn _ _ _ HN). exact A3. }
  rewrite V2, A3 by exact Hn. split; [split; [apply Bk, Hn|]|apply Bk, Hn]. apply (it_rising N nn _ _ _ HN); assumption.
Qed.
Print Assumptions C62_rising.

(** if every node is linked through cells to a boundary node, exactly one field is left unchanged by a cycle,
    and the run converges to it from any start *)
Theorem C62_converges : forall sv N X EC EN L Q, let nn := cm_nodes (sv_mesh sv) in let nc := cm_cells (sv_mesh sv) in
  sound sv N X EC EN L Q -> (forall n, n < nn -> linked N nc (fun m => on_patches (L 0) Q m \/ on_patches (L 3) Q m) n) ->
  exists h, (forall n, n < nn -> cycle_result N nc L Q h h n /\ (0 <= h n <= 10)%R) /\
    (forall h', (forall n, n < nn -> cycle_result N nc L Q h' h' n) -> forall n, n < nn -> h' n = h n) /\
    (forall s, length (ru_node s) = nn -> length (ru_mat s) = nc ->
       exists run_, (forall k, loop k (fun _ => advance sv) s = Ok (run_ k)) /\ forall n, n < nn -> Un_cv (fun k => val (ru_node (run_ k)) n) (h n)).
Proof.
  intros sv N X EC EN L Q nn nc HS HR. set (b0 := hit (L 0) Q). set (b3 := hit (L 3) Q). assert (HN := nodes_in sv N X EC EN L Q HS). fold nn nc in HN.
  assert (HR' : forall n, n < nn -> linked N nc (fixed b0 b3) n).
  { intros n Hn. assert (R := HR n Hn). clear -R. induction R as [n [F|F]|c l l' Hc Hl Hl' R IH].
    - apply linked_here. left. apply hit_on. exact F.
    - apply linked_here. right. apply hit_on. exact F.
    - apply (linked_cell N nc _ c l l'); assumption. }
  destruct (converges N nn nc b0 b3 HN HR') as (h & H1 & H2). exists h. split; [|split].
  - intros n Hn. split; [apply (cycle_T sv N L Q); symmetry; apply H1; exact Hn|].
    assert (B : forall k, (0 <= it N nc b0 b3 k (fun _ => 0%R) n <= 10)%R) by (intros k; apply (it_bounds N nn nc b0 b3 HN 0 10); [lra|lra|intros; lra|exact Hn]).
    split; [apply (Rle_cv_lim (Un := fun _ => 0%R) (Vn := fun k => it N nc b0 b3 k (fun _ => 0%R) n)); [intros k; apply B|apply cv_const|apply H2, Hn]|].
    apply (Rle_cv_lim (Un := fun k => it N nc b0 b3 k (fun _ => 0%R) n) (Vn := fun _ => 10%R)); [intros k; apply B|apply H2, Hn|apply cv_const].
  - intros h' Hh' n Hn. apply (steady_unique N nn nc b0 b3 HN HR'); try assumption. intros m Hm. symmetry. apply (cycle_T sv N L Q). apply Hh'. exact Hm.
  - intros s Ls Lm. set (run_ := fun k => match loop k (fun _ => advance sv) s with Ok s' => s' | Err _ => s end). exists run_.
    assert (K : forall k, loop k (fun _ => advance sv) s = Ok (run_ k) /\ forall n, n < nn -> val (ru_node (run_ k)) n = it N nc b0 b3 k (val (ru_node s)) n).
    { intros k. destruct (advances_ok sv N X EC EN L Q HS k s Ls Lm) as (s' & E & _ & _ & A). unfold run_. rewrite E. split; [reflexivity|exact A]. }
    split; [intros k; apply K|]. intros n Hn. apply (cv_ext (fun k => it N nc b0 b3 k (val (ru_node s)) n)); [|apply H2; exact Hn].
    intros k. symmetry. apply K. exact Hn.
Qed.
Print Assumptions C62_converges.

(** ---- grids of boxes ---- *)

(** the solver of a grid of equal boxes (see C61_boxes) with at least four boundary conditions is sound, and its
    sets are the nodes near the given surfaces (for the outer coordinate planes of a mesh with edges not below
    1e-6 and no two elements at the same place: exactly the nodes on the plane); if every element is linked through shared nodes to one with a
    node in set 0 or 3, C62_converges applies *)
Theorem C62_boxes : forall p ne m N X o s E D bcs,
  p <= 5 -> cdescribes m N X -> cm_cells m = S ne -> box_elements 1 (S ne) N X o s E ->
  D < 3 -> (forall d, d < 3 -> (0 < s D <= s d)%R) -> (s D <= 7 * INR (Nat.max 1 p))%R ->
  (p = 0 -> exists e l e' l', e < S ne /\ l < 8 /\ e' < S ne /\ l' < 8 /\ e <> e' /\ 0 < e + l /\ 0 < e' + l' /\ forall d, d < 3 -> X (N e l) d = X (N e' l') d) ->
  4 <= length bcs ->
  exists r C sets CN CX EC EN L Q pt, refine_mesh p m = Ok (r, C) /\ generate_bcs (rf_mesh r) (cn_patches C) bcs = Ok sets /\
    let sv := Solver (S ne) (num_sub_1d p) (num_g_pts_1d p ^ 3) (rf_maps r) (rf_mesh r) C sets in let nc := cm_cells (rf_mesh r) in
    sound sv CN CX EC EN L Q /\
    (forall i tag v, nth_error bcs i = Some (tag, v) -> forall n, on_patches (L i) Q n <-> near_surface CN CX nc pt tag v n) /\
    (forall e l d, e < S ne -> l < pts1 p ^ 3 -> d < 3 -> CX (EN e l) d = tri_pos p N X (e * pts1 p ^ 3 + l) d) /\
    (forall e l e' l', 0 < e * pts1 p ^ 3 + l -> 0 < e' * pts1 p ^ 3 + l' -> e < S ne -> l < pts1 p ^ 3 -> e' < S ne -> l' < pts1 p ^ 3 ->
       (forall d, d < 3 -> tri_pos p N X (e * pts1 p ^ 3 + l) d = tri_pos p N X (e' * pts1 p ^ 3 + l') d) -> EN e l = EN e' l') /\
    (forall c t c' t', c < nc -> t < 6 -> c' < nc -> t' < 6 -> (pt c t = pt c' t' <-> forall d, d < 3 -> face_centre CN CX c t d = face_centre CN CX c' t' d)) /\
    (forall e i j k c, e < S ne -> i < Spec_Full.sub1 p -> j < Spec_Full.sub1 p -> k < Spec_Full.sub1 p -> c < 8 -> CN (cell_id p e i j k) c = EN e (corner_pt p i j k c)) /\
    ((forall e, e < S ne -> reach EN (S ne) (pts1 p ^ 3) (fun n => on_patches (L 0) Q n \/ on_patches (L 3) Q n) e) ->
     forall n, n < cm_nodes (rf_mesh r) -> linked CN nc (fun n => on_patches (L 0) Q n \/ on_patches (L 3) Q n) n) /\
    ((forall e e', e < S ne -> e' < S ne -> (forall d, d < 3 -> E e d = E e' d) -> e = e') -> (/ 10 ^ 6 <= s D)%R ->
     forall i d v, nth_error bcs i = Some (d, v) -> d < 3 -> (exists e l, e < S ne /\ l < 8 /\ X (N e l) d = v) ->
       (forall e l, e < S ne -> l < 8 -> (v <= X (N e l) d)%R) \/ (forall e l, e < S ne -> l < 8 -> (X (N e l) d <= v)%R) ->
       forall n, n < cm_nodes (rf_mesh r) -> (on_patches (L i) Q n <-> CX n d = v)).
Proof.
  intros p ne m N X o s E D bcs Hp HM Ec HB HD Hs Hbig H0e Hbc.
  destruct (C61_boxes p ne m N X o s E D Hp HM Ec HB HD Hs Hbig H0e) as (r & C & nd & CN & CX & pt & Er & H). cbv zeta in H.
  destruct H as (A1 & A2 & A3 & A4 & _ & A5 & A6 & A7 & A8 & A9 & _ & _ & _ & _ & A10 & A11 & _).
  set (n1 := pts1 p) in *. set (ns := Spec_Full.sub1 p) in *. set (ng := n1 ^ 3) in *.
  assert (P12 := pts1_sub p). fold n1 ns in P12. destruct P12 as (P1 & P2).
  rewrite <- A1 in A9, A10, A11.
  destruct (C62_generate_bcs (rf_mesh r) (cn_patches C) bcs CN CX pt A2 A10) as (b & L & Q & Eb & Hb); [destruct bcs; [cbn in Hbc; lia|discriminate]|].
  exists r, C, b, CN, CX, (fun e l => cell_id p e (l mod ns) (l / ns mod ns) (l / ns / ns)), (fun e l => nd (e * ng + l)), L, Q, pt.
  split; [exact Er|]. split; [exact Eb|]. cbv zeta.
  assert (Ens : num_sub_1d p = ns) by apply sub1_model.
  assert (Eng : num_g_pts_1d p ^ 3 = ng) by (unfold ng, n1; rewrite pts1_model; reflexivity).
  assert (Dec : forall l, l < ns * ns * ns -> l mod ns < ns /\ l / ns mod ns < ns /\ l / ns / ns < ns /\ l = l mod ns + l / ns mod ns * ns + l / ns / ns * ns * ns).
  { intros l Hl. split; [apply Nat.mod_upper_bound; lia|]. split; [apply Nat.mod_upper_bound; lia|]. split; [apply Nat.div_lt_upper_bound; [lia|]; apply Nat.div_lt_upper_bound; lia|].
    rewrite (Nat.div_mod l ns) at 1 by lia. rewrite (Nat.div_mod (l / ns) ns) at 1 by lia. ring. }
  assert (Enc : cm_cells (rf_mesh r) = S ne * (ns * ns * ns)) by (rewrite A1; cbn [Nat.pow]; ring).
  split; [|split; [|split; [|split; [|split; [|split; [|split]]]]]].
  - split.
    + split; [exact A2|exact A9].
    + split; cbn [sv_elems sv_ns sv_G sv_mesh sv_conn sv_maps]; rewrite ?Ens, ?Eng.
      * intros e l He Hl. destruct (Dec l Hl) as (Q1 & Q2 & Q3 & Q4). split; [rewrite Q4 at 1; apply A7; assumption|]. rewrite Enc. apply cell_id_lt; assumption.
      * intros c Hc. rewrite Enc in Hc. destruct (cell_split p (S ne) c Hc) as (e & i & j & k & He & Hi & Hj & Hk & ->). fold ns in Hi, Hj, Hk. exists e, (i + j * ns + k * ns * ns). split; [exact He|].
        assert (M1 : (i + j * ns + k * ns * ns) mod ns = i) by (replace (i + j * ns + k * ns * ns) with (i + (j + k * ns) * ns) by ring; rewrite Nat.mod_add by lia; apply Nat.mod_small; exact Hi).
        assert (M2 : (i + j * ns + k * ns * ns) / ns = j + k * ns) by (replace (i + j * ns + k * ns * ns) with (i + (j + k * ns) * ns) by ring; rewrite Nat.div_add, Nat.div_small by lia; lia).
        assert (M3 : (j + k * ns) mod ns = j) by (rewrite Nat.mod_add by lia; apply Nat.mod_small; exact Hj).
        assert (M4 : (j + k * ns) / ns = k) by (rewrite Nat.div_add, Nat.div_small by lia; lia).
        split; [nia|]. rewrite M2, M1, M3, M4. reflexivity.
      * intros e l He Hl. split; [apply A8; assumption|]. apply A3. nia.
      * intros n Hn. destruct (A4 n Hn) as (g & Hg & <-). exists (g / ng), (g mod ng). assert (0 < ng) by (unfold ng; cbn [Nat.pow]; nia).
        split; [apply Nat.div_lt_upper_bound; lia|]. split; [apply Nat.mod_upper_bound; lia|]. rewrite (Nat.div_mod g ng) at 3 by lia. f_equal. ring.
    + intros i Hi. cbn [sv_sets sv_conn sv_mesh]. destruct (nth_error bcs i) as [(tag, v)|] eqn:Ei; [|apply nth_error_None in Ei; lia]. destruct (Hb i tag v Ei) as (B1 & B2 & _). auto.
  - intros i tag v Ei. apply (Hb i tag v Ei).
  - intros e l d He Hl Hd. apply (A3 (e * ng + l)); [nia|exact Hd].
  - intros e l e' l' Z Z' He Hl He' Hl' G. apply A5; [nia|nia|exact G].
  - exact A11.
  - exact A6.
  - intros R n Hn. destruct (A4 n Hn) as (g & Hg & <-). assert (0 < ng) by (unfold ng; cbn [Nat.pow]; nia). rewrite (Nat.div_mod g ng), Nat.mul_comm by lia.
    rewrite A1. apply (reach_link p (S ne) CN nd A6); [|exact (Nat.mod_upper_bound g ng ltac:(lia))]. apply R. apply (Nat.div_lt_upper_bound g ng); lia.
  - intros HE Hwide i d v Ei Hd Hat Hside n Hn. rewrite (proj2 (proj2 (Hb i d v Ei)) n). rewrite Enc.
    assert (HC : forall e i j k l d, e < S ne -> i < ns -> j < ns -> k < ns -> l < 8 -> d < 3 -> CX (CN (cell_id p e i j k) l) d = Proof_Full3.place p o s E e d (Proof_Full3.tri i j k d + corner_coord l d)).
    { intros e i' j k l d' He Hi Hj Hk Hl Hd'. rewrite A6 by assumption. assert (l mod 2 < 2) by (apply Nat.mod_upper_bound; lia). assert (l / 2 mod 2 < 2) by (apply Nat.mod_upper_bound; lia). assert (l / 4 < 2) by (apply Nat.div_lt_upper_bound; lia).
      assert (G : corner_pt p i' j k l < ng) by (unfold corner_pt, ng; cbv zeta; fold n1; apply Proof_High.grid3_lt; lia).
      destruct (A3 (e * ng + corner_pt p i' j k l)) as (_ & _ & Q3); [nia|]. rewrite Q3 by exact Hd'. unfold corner_pt. cbv zeta. fold n1.
      assert (T := Proof_Full3.tri_box p ne m N X o s E D Hp Ec HB HD e (i' + l mod 2) (j + l / 2 mod 2) (k + l / 4) d' He). fold n1 ng in T. rewrite T by lia. f_equal.
      assert (Q4 : l / 4 mod 2 = l / 4) by (apply Nat.mod_small; lia). unfold corner_coord. destruct d' as [|[|[|d']]]; cbn [Proof_Full3.tri Nat.pow Nat.mul Nat.add]; rewrite ?Nat.div_1_r, ?Q4; lia. }
    rewrite Enc in A11.
    assert (Hin : exists c l, c < S ne * (ns * ns * ns) /\ l < 8 /\ CN c l = n).
    { destruct (A4 n Hn) as (g & Hg & <-). destruct (Proof_High3.gauss_split n1 (S ne) g ltac:(lia) Hg) as (e & a & b' & c & He & Ha & Hb' & Hc & ->). fold ng.
      assert (Sp : forall x, x < n1 -> exists i u, i < ns /\ u < 2 /\ x = i + u) by (intros x Hx; exists (Nat.min x (ns - 1)), (x - Nat.min x (ns - 1)); lia).
      destruct (Sp a Ha) as (i0 & u & Hi & Hu & ->). destruct (Sp b' Hb') as (j0 & u' & Hj & Hu' & ->). destruct (Sp c Hc) as (k0 & u'' & Hk & Hu'' & ->).
      exists (cell_id p e i0 j0 k0), (u + 2 * u' + 4 * u''). split; [apply cell_id_lt; assumption|]. split; [lia|]. rewrite A6 by (assumption || lia). f_equal. f_equal. unfold corner_pt. cbv zeta. fold n1.
      assert (u = 0 \/ u = 1) as [-> | ->] by lia; assert (u' = 0 \/ u' = 1) as [-> | ->] by lia; assert (u'' = 0 \/ u'' = 1) as [-> | ->] by lia; reflexivity. }
    destruct Hside as [Hside|Hside].
    + apply (plane_nodes p ne m N X o s E D Hp Ec HB HD Hs Hbig Hwide CN CX pt HC A11 HE d 0 v Hd ltac:(lia)); assumption.
    + apply (plane_nodes p ne m N X o s E D Hp Ec HB HD Hs Hbig Hwide CN CX pt HC A11 HE d 1 v Hd ltac:(lia)); assumption.
Qed.
Print Assumptions C62_boxes.
