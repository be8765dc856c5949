(** Smoothing and cycles of examples/average in rounded arithmetic: the model computes the specified means (C80). *)
From Coq Require Import Reals List Arith ZArith Lra Lia Bool.
Import ListNotations.
Require Import Verif.Base Verif.NatSum Verif.RBase Verif.RSum Verif.Spec_Patch Verif.Spec_Full Verif.Model_Conn Verif.Model_Refine Verif.Model_Full Verif.Model_Average
  Verif.Spec_Average Verif.Proof_Average Verif.Proof_Average5 Verif.Model_FloatLagrange Verif.Model_FloatAverage Verif.Spec_FloatAverage Verif.Model_Patch.
Local Open Scope nat_scope.

Section Float.
Variable (rnd : R -> R).

Lemma sumf_loop n (at_ : nat -> res R) (g : nat -> R) : (forall i, i < n -> at_ i = Ok (g i)) ->
  loop n (fun i a => do x <- at_ i; Ok (rnd (a + x))%R) 0%R = Ok (sumf rnd n g).
Proof.
  intros H. destruct (loop_inv (fun i (a : R) => a = sumf rnd i g) n (fun i a => do x <- at_ i; Ok (rnd (a + x))%R) 0%R) as (a & E & Q); [reflexivity| |rewrite E, Q; reflexivity].
  intros i a Hi ->. rewrite H by exact Hi. cbn [bind]. eexists. split; [reflexivity|]. reflexivity.
Qed.
Lemma sumf_ext n g h : (forall i, i < n -> g i = h i) -> sumf rnd n g = sumf rnd n h.
Proof. induction n as [|n IH]; intros H; [reflexivity|]. cbn [sumf]. rewrite IH, (H n) by (intros; try apply H; lia). reflexivity. Qed.
Lemma meanf_ext n g h : (forall i, i < n -> g i = h i) -> meanf rnd n g = meanf rnd n h.
Proof. intros H. unfold meanf. apply sumf_ext. intros i Hi. rewrite H by exact Hi. reflexivity. Qed.

Section Smooth.
  Variables (sv : solver) (N : nat -> nat -> nat) (X : nat -> nat -> R) (A : nat -> list nat).
  Hypothesis HM : mesh_sound sv N X.
  Hypothesis HA : lists_around sv A.
  Let nn := cm_nodes (sv_mesh sv).
  Let nc := cm_cells (sv_mesh sv).

  Lemma presents_same (cnt : res nat) at_ L L' : presents cnt at_ L -> presents cnt at_ L' -> L = L'.
  Proof.
    intros (P1 & P2) (P3 & P4). rewrite P1 in P3. injection P3 as E. apply (nth_ext _ _ 0 0 E). intros i Hi.
    assert (Q := P2 i Hi). rewrite P4 in Q by lia. injection Q as ->. reflexivity.
  Qed.
  Lemma A_facts n : n < nn -> (forall c, In c (A n) -> c < nc) /\ (forall c, c < nc -> count_occ Nat.eq_dec (A n) c = times 8 N c n) /\ length (A n) = corner_count N nc n.
  Proof.
    intros Hn. destruct (around sv N X HM n Hn) as (L & P & B & T & E). rewrite (presents_same _ _ _ _ (HA n Hn) P). auto.
  Qed.

  Lemma cell_averagef_ok node c : length node = nn -> c < nc -> cell_averagef rnd sv node c = Ok (cell_meanf rnd N (val node) c).
  Proof.
    intros Hl Hc. destruct HM as [(HN & _) _]. unfold cell_averagef, cell_meanf, meanf.
    rewrite (loop_ext 8 _ (fun l a => do x <- (do n <- cm_node (sv_mesh sv) c l; do x <- get node n; Ok (rnd (x / 8))%R); Ok (rnd (a + x))%R)).
    - rewrite (sumf_loop 8 _ (fun l => rnd (val node (N c l) / INR 8)%R)); [reflexivity|].
      intros l Hl8. destruct (HN c l Hc Hl8) as (E & B). rewrite E. cbn [bind]. rewrite (get_ok node _ 0%R) by (fold nn in B; lia). cbn [bind]. replace (INR 8) with 8%R by (cbn; lra). reflexivity.
    - intros l a _. destruct (cm_node (sv_mesh sv) c l); [|reflexivity]. cbn [bind]. destruct (get node a0); reflexivity.
  Qed.

  Lemma node_averagef_ok mat n : length mat = nc -> n < nn -> node_averagef rnd sv mat n = Ok (node_meanf rnd A (val mat) n).
  Proof.
    intros Hl Hn. destruct (A_facts n Hn) as (B & T & Len). destruct (HA n Hn) as (P1 & P2). unfold node_averagef, node_meanf, meanf. rewrite P1. cbn [bind].
    destruct (length (A n)) as [|k] eqn:Ek; [reflexivity|]. rewrite <- Ek in *. assert (K0 : INR (length (A n)) <> 0%R) by (apply not_0_INR; lia).
    rewrite (loop_ext (length (A n)) _ (fun j a => do x <- (do c <- cells_in_node (cn_node_cells (sv_conn sv)) n j; do x <- get mat c; Ok (rnd (x / INR (length (A n))))%R); Ok (rnd (a + x))%R)).
    - apply sumf_loop. intros j Hj. rewrite P2 by exact Hj. cbn [bind]. rewrite (get_ok mat _ 0%R); [reflexivity|]. rewrite Hl. apply B, nth_In, Hj.
    - intros j a _. destruct (cells_in_node (cn_node_cells (sv_conn sv)) n j); [|reflexivity]. cbn [bind]. destruct (get mat a0); [|reflexivity]. cbn [bind]. unfold rdivf. destruct (Req_EM_T (INR (length (A n))) 0); [contradiction|]. reflexivity.
  Qed.

  (** the result of either smoothing *)
  Definition smoothing_off (node node' mat' : list R) : Prop :=
    length node' = nn /\ length mat' = nc /\ (forall c, c < nc -> val mat' c = cell_meanf rnd N (val node) c) /\
    (forall n, n < nn -> val node' n = smoothedf rnd N A (val node) n).

  Lemma node_meanf_ext g g' n : n < nn -> (forall c, c < nc -> g c = g' c) -> node_meanf rnd A g n = node_meanf rnd A g' n.
  Proof. intros Hn H. unfold node_meanf. apply meanf_ext. intros j Hj. apply H. apply (A_facts n Hn), nth_In, Hj. Qed.

  Lemma smooth_cellsf_ok node mat : length node = nn -> length mat = nc ->
    exists node' mat', smooth_cellsf rnd sv (node, mat) = Ok (node', mat') /\ smoothing_off node node' mat'.
  Proof.
    intros Hn Hm. unfold smooth_cellsf. fold nc nn.
    destruct (assigned_loop (cell_meanf rnd N (val node)) nc (fun c j => j = c) (fun c mat => do a <- cell_averagef rnd sv node c; set mat c a) mat) as (mat' & E & (L1 & A1)).
    { intros c l' Hc Hl. rewrite cell_averagef_ok by assumption. cbn [bind]. rewrite set_ok by lia. eexists. split; [reflexivity|]. apply assigned_set. lia. }
    rewrite E. cbn [bind].
    destruct (assigned_loop (node_meanf rnd A (val mat')) nn (fun c j => j = c) (fun n node => do a <- node_averagef rnd sv mat' n; set node n a) node) as (node' & E' & (L2 & A2)).
    { intros n l' Hc Hl. rewrite node_averagef_ok by (assumption || lia). cbn [bind]. rewrite set_ok by lia. eexists. split; [reflexivity|]. apply assigned_set. lia. }
    rewrite E'. cbn [bind]. exists node', mat'. split; [reflexivity|]. split; [lia|]. split; [lia|].
    assert (M : forall c, c < nc -> val mat' c = cell_meanf rnd N (val node) c).
    { intros c Hc. destruct (A1 c ltac:(lia)) as [(_ & Q)|(Q & _)]; [exact Q|]. exfalso. apply Q. exists c. auto. }
    split; [exact M|]. intros n Hn'. destruct (A2 n ltac:(lia)) as [(_ & Q)|(Q & _)].
    - rewrite Q. unfold smoothedf. apply node_meanf_ext; [exact Hn'|]. exact M.
    - exfalso. apply Q. exists n. auto.
  Qed.

  Lemma smooth_elementf_ok EC EN node mat : elems_sound sv EC EN -> length node = nn -> length mat = nc ->
    exists node' mat', smooth_elementf rnd sv (node, mat) = Ok (node', mat') /\ smoothing_off node node' mat'.
  Proof.
    intros [H1 H2 H3 H4] Hn Hm. unfold smooth_elementf. cbv zeta. fold nc in H1, H2. fold nn in H3, H4.
    set (K := sv_ns sv * sv_ns sv * sv_ns sv) in *.
    destruct (assigned_loop (cell_meanf rnd N (val node)) (sv_elems sv) (fun e j => exists l, l < K /\ j = EC e l)
      (fun e mat => loop K (fun l mat => do c <- cells_in_elem (sv_maps sv) (sv_ns sv) e l; do a <- cell_averagef rnd sv node c; set mat c a) mat) mat) as (mat' & E & (L1 & A1)).
    { intros e l' He Hl. apply (assigned_loop _ K (fun l j => j = EC e l)). intros l l'' Hl3 Hl4.
      destruct (H1 e l He Hl3) as (Q & B). rewrite Q. cbn [bind]. rewrite cell_averagef_ok by assumption. cbn [bind]. rewrite set_ok by lia. eexists. split; [reflexivity|]. apply assigned_set. lia. }
    rewrite E. cbn [bind].
    destruct (assigned_loop (node_meanf rnd A (val mat')) (sv_elems sv) (fun e j => exists l, l < sv_G sv /\ j = EN e l)
      (fun e node => loop (sv_G sv) (fun l node => do n <- getu (cn_nodes_in_elem (sv_conn sv)) (e * sv_G sv + l); do a <- node_averagef rnd sv mat' n; set node n a) node) node) as (node' & E' & (L2 & A2)).
    { intros e l' He Hl. apply (assigned_loop _ (sv_G sv) (fun l j => j = EN e l)). intros l l'' Hl3 Hl4.
      destruct (H3 e l He Hl3) as (Q & B). rewrite Q. cbn [bind]. rewrite node_averagef_ok by (assumption || lia). cbn [bind]. rewrite set_ok by lia. eexists. split; [reflexivity|]. apply assigned_set. lia. }
    rewrite E'. cbn [bind]. exists node', mat'. split; [reflexivity|]. split; [lia|]. split; [lia|].
    assert (M : forall c, c < nc -> val mat' c = cell_meanf rnd N (val node) c).
    { intros c Hc. destruct (A1 c ltac:(lia)) as [(_ & Q)|(Q & _)]; [exact Q|]. exfalso. apply Q. destruct (H2 c Hc) as (e & l & He & Hl & <-). exists e. split; [exact He|]. exists l. auto. }
    split; [exact M|]. intros n Hn'. destruct (A2 n ltac:(lia)) as [(_ & Q)|(Q & _)].
    - rewrite Q. unfold smoothedf. apply node_meanf_ext; [exact Hn'|]. exact M.
    - exfalso. apply Q. destruct (H4 n Hn') as (e & l & He & Hl & <-). exists e. split; [exact He|]. exists l. auto.
  Qed.
End Smooth.

Section Run.
  Variables (sv : solver) (N : nat -> nat -> nat) (X : nat -> nat -> R) (EC EN : nat -> nat -> nat) (L : nat -> list nat) (Q : nat -> nat -> nat) (A : nat -> list nat).
  Hypothesis HS : sound sv N X EC EN L Q.
  Hypothesis HA : lists_around sv A.
  Let nn := cm_nodes (sv_mesh sv).
  Let nc := cm_cells (sv_mesh sv).
  Let b0 := hit (L 0) Q.
  Let b3 := hit (L 3) Q.
  Let HM := so_mesh _ _ _ _ _ _ _ HS.

  Definition Tf (f : nat -> R) (n : nat) : R := if b0 n then 10%R else if b3 n then 0%R else smoothedf rnd N A f n.
  Definition itf (k : nat) (f : nat -> R) : nat -> R := Nat.iter k Tf f.

  Lemma cycle_Tf f f' n : cycle_resultf rnd N A L Q f f' n <-> f' n = Tf f n.
  Proof.
    unfold cycle_resultf, Tf, b0, b3. destruct (hit (L 0) Q n) eqn:E0; [apply hit_on in E0|].
    - split; [intros (B & _); auto|]. intros B. repeat split; intros; try contradiction; assumption.
    - assert (N0 : ~ on_patches (L 0) Q n) by (intros B; apply hit_on in B; congruence).
      destruct (hit (L 3) Q n) eqn:E3; [apply hit_on in E3|].
      + split; [intros (_ & B & _); auto|]. intros B. repeat split; intros; try contradiction; assumption.
      + assert (N3 : ~ on_patches (L 3) Q n) by (intros B; apply hit_on in B; congruence).
        split; [intros (_ & _ & B); auto|]. intros B. repeat split; intros; try contradiction; assumption.
  Qed.
  Lemma cell_meanf_ext f g c : c < nc -> (forall n, n < nn -> f n = g n) -> cell_meanf rnd N f c = cell_meanf rnd N g c.
  Proof. intros Hc H. unfold cell_meanf. apply meanf_ext. intros l Hl. apply H. apply (nodes_in sv N X EC EN L Q HS); assumption. Qed.
  Lemma smoothedf_ext f g n : n < nn -> (forall m, m < nn -> f m = g m) -> smoothedf rnd N A f n = smoothedf rnd N A g n.
  Proof. intros Hn H. unfold smoothedf. apply (node_meanf_ext sv N X A HM HA); [exact Hn|]. intros c Hc. apply cell_meanf_ext; assumption. Qed.
  Lemma Tf_ext f g n : n < nn -> (forall m, m < nn -> f m = g m) -> Tf f n = Tf g n.
  Proof. intros Hn H. unfold Tf. destruct (b0 n); [reflexivity|]. destruct (b3 n); [reflexivity|]. apply smoothedf_ext; assumption. Qed.

  Lemma advancef_ok s : length (ru_node s) = nn -> length (ru_mat s) = nc ->
    exists s', advancef rnd sv s = Ok s' /\ length (ru_node s') = nn /\ length (ru_mat s') = nc /\
      (forall c, c < nc -> val (ru_mat s') c = cell_meanf rnd N (val (ru_node s)) c) /\
      (forall n, n < nn -> val (ru_node s') n = Tf (val (ru_node s)) n) /\
      ru_dumps s' = ru_dumps s /\ ru_id s' = ru_id s /\ ru_times s' = ru_times s /\ ru_next s' = ru_next s /\ ru_now s' = rnd (ru_now s + rnd (1 / 1000))%R.
  Proof.
    intros Hn Hm. assert (HE := so_elems _ _ _ _ _ _ _ HS). assert (HB := so_sets _ _ _ _ _ _ _ HS). unfold advancef.
    destruct (smooth_elementf_ok sv N X A HM HA EC EN (ru_node s) (ru_mat s) HE Hn Hm) as (node & mat & -> & (A1 & A2 & A3 & A4)). cbn [bind].
    destruct (apply_boundary_ok sv L Q node HB A1) as (node' & -> & B1 & B2). cbn [bind].
    eexists. split; [reflexivity|]. cbn [ru_node ru_mat ru_dumps ru_id ru_times ru_next ru_now]. split; [exact B1|]. split; [exact A2|]. split; [exact A3|]. split; [|auto 6].
    intros n Hn'. apply (cycle_Tf (val (ru_node s)) (val node')). destruct (B2 n Hn') as [(C1 & C2)|[(C1 & C2 & C3)|(C1 & C2 & C3)]]; repeat split; intros; try contradiction; try assumption.
    rewrite C3. apply A4. exact Hn'.
  Qed.

  Lemma advancesf_ok k s : length (ru_node s) = nn -> length (ru_mat s) = nc ->
    exists s', loop k (fun _ => advancef rnd sv) s = Ok s' /\ length (ru_node s') = nn /\ length (ru_mat s') = nc /\
      (forall n, n < nn -> val (ru_node s') n = itf k (val (ru_node s)) n).
  Proof.
    intros Hn Hm. edestruct (loop_inv (fun k s' => length (ru_node s') = nn /\ length (ru_mat s') = nc /\
      (forall n, n < nn -> val (ru_node s') n = itf k (val (ru_node s)) n)) k) as (s' & E & H1 & H2 & H3).
    3:{ exists s'. split; [exact E|]. auto. }
    - split; [exact Hn|]. split; [exact Hm|]. intros n Hn'. reflexivity.
    - intros i s' Hi (H1 & H2 & H3). destruct (advancef_ok s' H1 H2) as (s'' & E & A1 & A2 & _ & A3 & _). exists s''. split; [exact E|]. split; [exact A1|]. split; [exact A2|].
      intros n Hn'. rewrite A3 by exact Hn'. change (itf (S i) (val (ru_node s)) n) with (Tf (itf i (val (ru_node s))) n). apply Tf_ext; assumption.
  Qed.
End Run.
End Float.

(** without rounding: the model of C62 *)
Lemma loop_ext' {S} n (f g : nat -> S -> res S) s : (forall i s, i < n -> f i s = g i s) -> loop n f s = loop n g s.
Proof. apply loop_ext. Qed.
Lemma bind_ext {A B} (x : res A) (f g : A -> res B) : (forall a, f a = g a) -> bind x f = bind x g.
Proof. intros H. destruct x; [apply H|reflexivity]. Qed.
Lemma rdivf_id x y : rdivf (fun r => r) x y = rdiv x y.
Proof. reflexivity. Qed.
