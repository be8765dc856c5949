(** Proofs about the smoothing of examples/average (C62). *)
From Coq Require Import Reals List Arith ZArith Lra Lia Sorted Bool.
Import ListNotations.
Require Import Verif.Base Verif.NatSum Verif.RBase Verif.RSum Verif.Spec_Full Verif.Model_Conn Verif.Model_Refine Verif.Model_Full Verif.Model_Average Verif.Spec_Average Verif.Model_Patch.
Local Open Scope nat_scope.

Lemma nth_indep_val {A} (l : list A) i d d' : i < length l -> nth i l d = nth i l d'.
Proof. apply nth_indep. Qed.

Lemma sum_loop n (at_ : nat -> res R) (g : nat -> R) : (forall i, i < n -> at_ i = Ok (g i)) ->
  loop n (fun i a => do x <- at_ i; Ok (a + x)%R) 0%R = Ok (rsum n g).
Proof.
  intros H. destruct (loop_inv (fun i (a : R) => a = rsum i g) n (fun i a => do x <- at_ i; Ok (a + x)%R) 0%R) as (a & E & Q); [reflexivity| |rewrite E, Q; reflexivity].
  intros i a Hi ->. rewrite H by exact Hi. cbn [bind]. eexists. split; [reflexivity|]. reflexivity.
Qed.

(** sums over a list by multiplicity *)
Lemma sum_by_count ni (g : nat -> R) L : (forall c, In c L -> c < ni) ->
  rsum (length L) (fun j => g (nth j L 0)) = rsum ni (fun c => INR (count_occ Nat.eq_dec L c) * g c)%R.
Proof.
  induction L as [|a L IH]; intros H.
  - cbn [length rsum]. symmetry. apply rsum_zero. intros i _. cbn. ring.
  - cbn [length]. rewrite rsum_S_l. cbn [nth]. rewrite IH by (intros; apply H; right; assumption).
    transitivity (rsum ni (fun c => (if Nat.eqb c a then g c else 0) + INR (count_occ Nat.eq_dec L c) * g c)%R).
    + rewrite rsum_plus. f_equal. rewrite (rsum_single ni a).
      * rewrite Nat.eqb_refl. reflexivity.
      * apply H. left. reflexivity.
      * intros i Hi Ne. apply Nat.eqb_neq in Ne. rewrite Ne. reflexivity.
    + apply rsum_ext. intros c Hc. cbn [count_occ]. destruct (Nat.eq_dec a c) as [->|Ne].
      * rewrite Nat.eqb_refl, S_INR. ring.
      * destruct (Nat.eqb_spec c a); [congruence|]. ring.
Qed.
Lemma length_by_count ni L : (forall c, In c L -> c < ni) -> length L = nsum ni (fun c => count_occ Nat.eq_dec L c).
Proof.
  induction L as [|a L IH]; intros H.
  - cbn [length]. symmetry. apply nsum_zero. reflexivity.
  - cbn [length]. rewrite IH by (intros; apply H; right; assumption).
    transitivity (nsum ni (fun c => (if Nat.eqb c a then 1 else 0) + count_occ Nat.eq_dec L c)).
    + rewrite nsum_plus. rewrite (nsum_single ni a (fun c => if Nat.eqb c a then 1 else 0)); [rewrite Nat.eqb_refl; reflexivity|apply H; left; reflexivity|].
      intros i Hi Ne. apply Nat.eqb_neq in Ne. rewrite Ne. reflexivity.
    + apply nsum_ext. intros c Hc. cbn [count_occ]. destruct (Nat.eq_dec a c) as [->|Ne].
      * rewrite Nat.eqb_refl. reflexivity.
      * destruct (Nat.eqb_spec c a); [congruence|]. reflexivity.
Qed.

(** assignment of V to the indices in S *)
Definition assigned (V : nat -> R) (S : nat -> Prop) (l l' : list R) : Prop :=
  length l' = length l /\ forall i, i < length l -> (S i /\ val l' i = V i) \/ (~ S i /\ val l' i = val l i).
Lemma assigned_none V l : assigned V (fun _ => False) l l.
Proof. split; [reflexivity|]. intros i Hi. right. auto. Qed.
Lemma assigned_ext V S S' l l' : (forall i, S i <-> S' i) -> assigned V S l l' -> assigned V S' l l'.
Proof. intros H (E & A). split; [exact E|]. intros i Hi. destruct (A i Hi) as [(B & C)|(B & C)]; [left|right]; (split; [|exact C]); rewrite <- H; exact B. Qed.
Lemma assigned_trans V S S' l l1 l2 : assigned V S l l1 -> assigned V S' l1 l2 -> assigned V (fun i => S i \/ S' i) l l2.
Proof.
  intros (E & A) (E' & A'). split; [congruence|]. intros i Hi. destruct (A' i ltac:(lia)) as [(B & C)|(B & C)].
  - left. auto.
  - destruct (A i Hi) as [(D & F)|(D & F)]; [left|right]; (split; [tauto|congruence]).
Qed.
Lemma assigned_set V l i : i < length l -> assigned V (fun j => j = i) l (upd l i (V i)).
Proof.
  intros Hi. split; [apply upd_length|]. intros j Hj. unfold val. rewrite nth_upd by exact Hi. destruct (Nat.eqb_spec j i) as [->|Ne]; [left|right]; auto.
Qed.
Lemma assigned_loop V n (S : nat -> nat -> Prop) (body : nat -> list R -> res (list R)) l :
  (forall i l', i < n -> length l' = length l -> exists l'', body i l' = Ok l'' /\ assigned V (S i) l' l'') ->
  exists l', loop n body l = Ok l' /\ assigned V (fun j => exists i, i < n /\ S i j) l l'.
Proof.
  intros H. apply (loop_inv (fun m l' => assigned V (fun j => exists i, i < m /\ S i j) l l')).
  - apply (assigned_ext _ (fun _ => False)); [|apply assigned_none]. intros i. split; [tauto|intros (x & Hx & _); lia].
  - intros i l' Hi A. destruct (H i l' Hi (proj1 A)) as (l'' & E & A'). exists l''. split; [exact E|].
    apply (assigned_ext _ (fun j => (exists x, x < i /\ S x j) \/ S i j)); [|exact (assigned_trans _ _ _ _ _ _ A A')].
    intros j. split.
    + intros [(x & Hx & Q)|Q]; [exists x|exists i]; split; auto; lia.
    + intros (x & Hx & Q). destruct (Nat.eq_dec x i) as [->|]; [right; exact Q|left; exists x; split; [lia|exact Q]].
Qed.

Section Smooth.
  Variables (sv : solver) (N : nat -> nat -> nat) (X : nat -> nat -> R).
  Hypothesis HM : mesh_sound sv N X.
  Let nn := cm_nodes (sv_mesh sv).
  Let nc := cm_cells (sv_mesh sv).

  Lemma cell_average_ok node c : length node = nn -> c < nc -> cell_average sv node c = Ok (cell_mean N (val node) c).
  Proof.
    intros Hl Hc. destruct HM as [(HN & _) _]. unfold cell_average, cell_mean.
    rewrite (loop_ext 8 _ (fun l a => do x <- (do n <- cm_node (sv_mesh sv) c l; do x <- get node n; Ok (x / 8)%R); Ok (a + x)%R)).
    - rewrite (sum_loop 8 _ (fun l => (val node (N c l) / 8)%R)).
      + unfold Rdiv. rewrite rsum_scal_r. reflexivity.
      + intros l Hl8. destruct (HN c l Hc Hl8) as (E & B). rewrite E. cbn [bind]. rewrite (get_ok node _ 0%R) by (fold nn in B; lia). reflexivity.
    - intros l a _. destruct (cm_node (sv_mesh sv) c l); [|reflexivity]. cbn [bind]. destruct (get node a0); reflexivity.
  Qed.

  Lemma around n : n < nn -> exists L, presents (num_cells_in_node (cn_node_cells (sv_conn sv)) n) (cells_in_node (cn_node_cells (sv_conn sv)) n) L /\
    (forall c, In c L -> c < nc) /\ (forall c, c < nc -> count_occ Nat.eq_dec L c = times 8 N c n) /\ length L = corner_count N nc n.
  Proof.
    intros Hn. destruct HM as [_ HA]. destruct (HA n Hn) as (L & P & _ & Hc). fold nc in Hc. exists L. split; [exact P|].
    assert (B : forall c, In c L -> c < nc).
    { intros c Hi. apply (count_occ_In Nat.eq_dec) in Hi. rewrite Hc in Hi. destruct (Nat.ltb_spec c nc); [assumption|lia]. }
    assert (T : forall c, c < nc -> count_occ Nat.eq_dec L c = times 8 N c n).
    { intros c Hcc. rewrite Hc. destruct (Nat.ltb_spec c nc); [reflexivity|lia]. }
    split; [exact B|]. split; [exact T|]. rewrite (length_by_count nc L B). unfold corner_count. apply nsum_ext. exact T.
  Qed.

  Lemma node_average_ok mat n : length mat = nc -> n < nn -> node_average sv mat n = Ok (node_mean N nc (val mat) n).
  Proof.
    intros Hl Hn. destruct (around n Hn) as (L & (P1 & P2) & B & T & Len). unfold node_average, node_mean. rewrite P1. cbn [bind].
    destruct (Nat.eqb_spec (corner_count N nc n) 0) as [Z|NZ].
    - rewrite Len, Z. reflexivity.
    - assert (K0 : INR (length L) <> 0%R) by (apply not_0_INR; lia).
      rewrite (loop_ext (length L) _ (fun j a => do x <- (do c <- cells_in_node (cn_node_cells (sv_conn sv)) n j; do x <- get mat c; Ok (x / INR (length L))%R); Ok (a + x)%R)).
      + rewrite (sum_loop _ _ (fun j => (val mat (nth j L 0%nat) / INR (length L))%R)).
        * unfold Rdiv. rewrite rsum_scal_r. rewrite (sum_by_count nc (val mat) L B). rewrite Len. do 2 f_equal. apply rsum_ext. intros c Hc. rewrite T by exact Hc. reflexivity.
        * intros j Hj. rewrite P2 by exact Hj. cbn [bind]. rewrite (get_ok mat _ 0%R); [reflexivity|]. rewrite Hl. apply B, nth_In, Hj.
      + intros j a _. destruct (cells_in_node (cn_node_cells (sv_conn sv)) n j); [|reflexivity]. cbn [bind]. destruct (get mat a0); [|reflexivity]. cbn [bind]. rewrite rdiv_ok by exact K0. reflexivity.
  Qed.

  (** the result of either smoothing *)
  Definition smoothing_of (node mat node' mat' : list R) : Prop :=
    length node' = nn /\ length mat' = nc /\ (forall c, c < nc -> val mat' c = cell_mean N (val node) c) /\
    (forall n, n < nn -> val node' n = smoothed N nc (val node) n).

  Lemma node_mean_ext g g' n : (forall c, c < nc -> g c = g' c) -> node_mean N nc g n = node_mean N nc g' n.
  Proof. intros H. unfold node_mean. destruct (_ =? 0); [reflexivity|]. f_equal. apply rsum_ext. intros c Hc. rewrite H by exact Hc. reflexivity. Qed.

  Lemma smooth_cells_ok node mat : length node = nn -> length mat = nc ->
    exists node' mat', smooth_cells sv (node, mat) = Ok (node', mat') /\ smoothing_of node mat node' mat'.
  Proof.
    intros Hn Hm. unfold smooth_cells. fold nc nn.
    destruct (assigned_loop (cell_mean N (val node)) nc (fun c j => j = c) (fun c mat => do a <- cell_average sv node c; set mat c a) mat) as (mat' & E & (L1 & A1)).
    { intros c l' Hc Hl. rewrite cell_average_ok by assumption. cbn [bind]. rewrite set_ok by lia. eexists. split; [reflexivity|]. apply assigned_set. lia. }
    rewrite E. cbn [bind].
    destruct (assigned_loop (node_mean N nc (val mat')) nn (fun c j => j = c) (fun n node => do a <- node_average sv mat' n; set node n a) node) as (node' & E' & (L2 & A2)).
    { intros n l' Hc Hl. rewrite node_average_ok by (assumption || lia). cbn [bind]. rewrite set_ok by lia. eexists. split; [reflexivity|]. apply assigned_set. lia. }
    rewrite E'. cbn [bind]. exists node', mat'. split; [reflexivity|]. split; [lia|]. split; [lia|].
    assert (M : forall c, c < nc -> val mat' c = cell_mean N (val node) c).
    { intros c Hc. destruct (A1 c ltac:(lia)) as [(_ & Q)|(Q & _)]; [exact Q|]. exfalso. apply Q. exists c. auto. }
    split; [exact M|]. intros n Hn'. destruct (A2 n ltac:(lia)) as [(_ & Q)|(Q & _)].
    - rewrite Q. unfold smoothed. apply node_mean_ext. exact M.
    - exfalso. apply Q. exists n. auto.
  Qed.

  Lemma smooth_element_ok EC EN node mat : elems_sound sv EC EN -> length node = nn -> length mat = nc ->
    exists node' mat', smooth_element sv (node, mat) = Ok (node', mat') /\ smoothing_of node mat node' mat'.
  Proof.
    intros [H1 H2 H3 H4] Hn Hm. unfold smooth_element. cbv zeta. fold nc in H1, H2. fold nn in H3, H4.
    set (K := sv_ns sv * sv_ns sv * sv_ns sv) in *.
    destruct (assigned_loop (cell_mean N (val node)) (sv_elems sv) (fun e j => exists l, l < K /\ j = EC e l)
      (fun e mat => loop K (fun l mat => do c <- cells_in_elem (sv_maps sv) (sv_ns sv) e l; do a <- cell_average sv node c; set mat c a) mat) mat) as (mat' & E & (L1 & A1)).
    { intros e l' He Hl. apply (assigned_loop _ K (fun l j => j = EC e l)). intros l l'' Hl3 Hl4.
      destruct (H1 e l He Hl3) as (Q & B). rewrite Q. cbn [bind]. rewrite cell_average_ok by assumption. cbn [bind]. rewrite set_ok by lia. eexists. split; [reflexivity|]. apply assigned_set. lia. }
    rewrite E. cbn [bind].
    destruct (assigned_loop (node_mean N nc (val mat')) (sv_elems sv) (fun e j => exists l, l < sv_G sv /\ j = EN e l)
      (fun e node => loop (sv_G sv) (fun l node => do n <- getu (cn_nodes_in_elem (sv_conn sv)) (e * sv_G sv + l); do a <- node_average sv mat' n; set node n a) node) node) as (node' & E' & (L2 & A2)).
    { intros e l' He Hl. apply (assigned_loop _ (sv_G sv) (fun l j => j = EN e l)). intros l l'' Hl3 Hl4.
      destruct (H3 e l He Hl3) as (Q & B). rewrite Q. cbn [bind]. rewrite node_average_ok by (assumption || lia). cbn [bind]. rewrite set_ok by lia. eexists. split; [reflexivity|]. apply assigned_set. lia. }
    rewrite E'. cbn [bind]. exists node', mat'. split; [reflexivity|]. split; [lia|]. split; [lia|].
    assert (M : forall c, c < nc -> val mat' c = cell_mean N (val node) c).
    { intros c Hc. destruct (A1 c ltac:(lia)) as [(_ & Q)|(Q & _)]; [exact Q|]. exfalso. apply Q. destruct (H2 c Hc) as (e & l & He & Hl & <-). exists e. split; [exact He|]. exists l. auto. }
    split; [exact M|]. intros n Hn'. destruct (A2 n ltac:(lia)) as [(_ & Q)|(Q & _)].
    - rewrite Q. unfold smoothed. apply node_mean_ext. exact M.
    - exfalso. apply Q. destruct (H4 n Hn') as (e & l & He & Hl & <-). exists e. split; [exact He|]. exists l. auto.
  Qed.

  Lemma fix_set_ok s v L Q node : presents (num_bdy_patches_in_set (sv_sets sv) s) (bdy_patches_in_set (sv_sets sv) s) L ->
    patch_corners (cn_patches (sv_conn sv)) nn L Q -> length node = nn ->
    exists node', fix_set sv s v node = Ok node' /\ assigned (fun _ => v) (on_patches L Q) node node'.
  Proof.
    intros (P1 & P2) HQ Hl. unfold fix_set. rewrite P1. cbn [bind].
    destruct (assigned_loop (fun _ => v) (length L) (fun i n => exists k, k < 4 /\ n = Q (nth i L 0) k)
      (fun i node => do p <- bdy_patches_in_set (sv_sets sv) s i; loop 4 (fun k node => do n <- patch_node (cn_patches (sv_conn sv)) p k; set node n v) node) node) as (node' & E & A).
    { intros i l' Hi Hl'. rewrite P2 by exact Hi. cbn [bind]. apply (assigned_loop _ 4 (fun k n => n = Q (nth i L 0) k)). intros k l'' Hk Hl''.
      destruct (HQ (nth i L 0) k (nth_In _ _ Hi) Hk) as (E & B). unfold patch_node. rewrite E. cbn [bind]. destruct (Z.ltb_spec (Z.of_nat (Q (nth i L 0) k)) 0); [lia|]. rewrite Nat2Z.id. cbn [bind].
      rewrite set_ok by lia. eexists. split; [reflexivity|]. apply (assigned_set (fun _ => v)). lia. }
    exists node'. split; [exact E|]. apply (assigned_ext _ (fun n => exists i, i < length L /\ exists k, k < 4 /\ n = Q (nth i L 0) k)); [|exact A].
    intros n. split.
    - intros (i & Hi & k & Hk & ->). exists (nth i L 0), k. split; [apply nth_In, Hi|]. auto.
    - intros (p & k & Hp & Hk & <-). destruct (In_nth L p 0 Hp) as (i & Hi & <-). exists i. split; [exact Hi|]. exists k. auto.
  Qed.

  Lemma apply_boundary_ok L Q node : sets_sound sv L Q -> length node = nn ->
    exists node', apply_boundary sv node = Ok node' /\ length node' = nn /\
      forall n, n < nn -> (on_patches (L 0) Q n /\ val node' n = 10%R) \/
        (~ on_patches (L 0) Q n /\ on_patches (L 3) Q n /\ val node' n = 0%R) \/
        (~ on_patches (L 0) Q n /\ ~ on_patches (L 3) Q n /\ val node' n = val node n).
  Proof.
    intros HS Hl. unfold apply_boundary. destruct (HS 3 ltac:(auto)) as (P3 & C3). destruct (HS 0 ltac:(auto)) as (P0 & C0).
    destruct (fix_set_ok 3 0 (L 3) Q node P3 C3 Hl) as (n3 & -> & (L3 & A3)). cbn [bind].
    destruct (fix_set_ok 0 10 (L 0) Q n3 P0 C0 ltac:(lia)) as (n0 & -> & (L0 & A0)). exists n0. split; [reflexivity|]. split; [lia|].
    intros n Hn. destruct (A0 n ltac:(lia)) as [(B & C)|(B & C)]; [left; auto|right]. destruct (A3 n ltac:(lia)) as [(D & F)|(D & F)]; [left|right]; repeat (split; [assumption|]); congruence.
  Qed.
End Smooth.
