(** Property theorems C30-C31 (swage/swage.cpp refine_mesh: node merging and index maps). *)
From Coq Require Import List Arith ZArith Lia.
Import ListNotations.
Require Import Verif.Base Verif.NatSum Verif.Model_Patch Verif.Spec_Patch Verif.Proof_Patch Verif.Model_Refine Verif.Proof_Refine.

Lemma merge_spec : forall keys, keys <> [] ->
  exists m, merge_nodes keys = Ok m /\
    (forall g, g < length keys -> exists v, v < mg_num m /\ node_in_gauss m g = Ok v) /\
    node_in_gauss m 0 = Ok 0 /\
    (forall g, 0 < g < length keys -> node_in_gauss m g <> Ok 0) /\
    (forall g g', 0 < g < length keys -> 0 < g' < length keys ->
       (node_in_gauss m g = node_in_gauss m g' <-> nth g keys 0 = nth g' keys 0)) /\
    (forall v, v < mg_num m -> exists g, g < length keys /\ gauss_of_node m v = Ok g /\ node_in_gauss m g = Ok v).
Proof.
  intros [|k0 tl] Hne; [congruence|]. clear Hne.
  destruct (merge_ok k0 tl) as (m & E & Hn & H0 & H1 & H2). exists m. split; [exact E|].
  assert (Hp : forall q, q < length tl -> pid tl (length tl) q < length (D tl (length tl))) by (intros q Hq; apply pid_lt; exact Hq).
  cbn [length] in *. split; [|split; [exact H0|split; [|split]]].
  - intros [|g] Hg; [exists 0; split; [lia|exact H0]|]. exists (S (pid tl (length tl) g)).
    split; [rewrite Hn; specialize (Hp g); lia|apply H1; lia].
  - intros [|g] Hg; [lia|]. rewrite H1 by lia. congruence.
  - intros [|g] [|g'] Hg Hg'; try lia. rewrite !H1 by lia. cbn [nth].
    assert (P := pid_eq tl (length tl) g g' ltac:(lia) ltac:(lia)). unfold key in P. rewrite <- P.
    split; [intros X; injection X; auto|intros ->; reflexivity].
  - intros [|v] Hv.
    + exists 0. split; [lia|]. split; [rewrite H2 by exact Hv; reflexivity|exact H0].
    + destruct (pid_surj tl (length tl) v) as (q & Hq & Eq); [unfold P; lia|].
      (* the first position carrying that key *)
      assert (F : exists q0, q0 < length tl /\ key tl q0 = key tl q /\ first_with_key tl q0 = true).
      { clear - Hq. induction q as [q IH] using (well_founded_induction lt_wf).
        destruct (first_with_key tl q) eqn:E; [exists q; auto|].
        assert (N : In (key tl q) (D tl q)).
        { destruct (in_dec Nat.eq_dec (key tl q) (D tl q)); [assumption|]. apply first_iff in n. congruence. }
        apply D_In in N. destruct N as (q' & Hq' & E').
        destruct (IH q' Hq' ltac:(lia)) as (q0 & A & B & C). exists q0. rewrite <- E'. auto. }
      destruct F as (q0 & A & B & C). exists (S q0). split; [lia|].
      assert (Ev : firsts_before tl q0 = v).
      { rewrite <- (pid_first tl _ eq_refl q0 A C), <- Eq. apply pid_eq; assumption. }
      destruct (first_node k0 tl m q0 E A C) as (F1 & F2). rewrite Ev in F1, F2. auto.
Qed.

(** C30: merging never fails, whatever the keys; every Gauss point gets a node below the node count;
    Gauss point 0 is the only owner of node 0; any two later Gauss points share a node iff their keys
    agree; every node is placed at a Gauss point that has it. *)
Theorem C30_merge : forall keys, keys <> [] ->
  exists m, merge_nodes keys = Ok m /\
    (forall g, g < length keys -> exists v, v < mg_num m /\ node_in_gauss m g = Ok v) /\
    node_in_gauss m 0 = Ok 0 /\
    (forall g, 0 < g < length keys -> node_in_gauss m g <> Ok 0) /\
    (forall g g', 0 < g < length keys -> 0 < g' < length keys ->
       (node_in_gauss m g = node_in_gauss m g' <-> nth g keys 0 = nth g' keys 0)) /\
    (forall v, v < mg_num m -> exists g, g < length keys /\ gauss_of_node m v = Ok g /\ node_in_gauss m g = Ok v).
Proof. exact merge_spec. Qed.
Print Assumptions C30_merge.

(** the node count is the number of distinct keys, plus one duplicate when the key of Gauss point 0 recurs *)
Theorem C30_count : forall k0 tl m, merge_nodes (k0 :: tl) = Ok m ->
  mg_num m = length (nodup Nat.eq_dec (k0 :: tl)) + (if in_dec Nat.eq_dec k0 tl then 1 else 0).
Proof. exact merge_count. Qed.
Print Assumptions C30_count.

(** numbering after node 0 is in first-seen order of the remaining Gauss points, and a node is placed at
    the first of them *)
Theorem C30_numbering : forall k0 tl m q, merge_nodes (k0 :: tl) = Ok m -> q < length tl ->
  first_with_key tl q = true ->
  node_in_gauss m (S q) = Ok (S (firsts_before tl q)) /\ gauss_of_node m (S (firsts_before tl q)) = Ok (S q).
Proof. exact first_node. Qed.
Print Assumptions C30_numbering.

(** so coincident points are NOT always merged: if the key of Gauss point 0 occurs again, the later
    points with that key get one common node which differs from the node of Gauss point 0 *)
Theorem C30_first_point_duplicated : forall keys m g, merge_nodes keys = Ok m -> 0 < g < length keys ->
  nth g keys 0 = nth 0 keys 0 -> exists v, node_in_gauss m g = Ok v /\ node_in_gauss m 0 = Ok 0 /\ v <> 0.
Proof.
  intros keys m g E Hg Ek. destruct keys as [|k0 tl]; [simpl in Hg; lia|].
  destruct (merge_spec (k0 :: tl)) as (m' & E' & H1 & H2 & H3 & _); [discriminate|].
  assert (m' = m) by congruence. subst m'. destruct (H1 g) as (v & _ & Hv); [lia|].
  exists v. split; [exact Hv|]. split; [exact H2|]. intros ->. exact (H3 g Hg Hv).
Qed.
Print Assumptions C30_first_point_duplicated.

Example C30_nonvacuous : exists m, merge_nodes [4; 7; 4; 7; 9; 4] = Ok m /\ mg_num m = 4 /\
  map (node_in_gauss m) (seq 0 6) = map (@Ok nat) [0; 1; 2; 1; 3; 2] /\
  map (gauss_of_node m) (seq 0 4) = map (@Ok nat) [0; 1; 2; 4].
Proof. eexists. split; [vm_compute; reflexivity|]. vm_compute. auto. Qed.

(** C31: for every number of elements and every order, the maps of the refined mesh are built without
    an out-of-range write; sub-cell (i,j,k) of element e has the id i + j*ns + k*ns^2 + ns^3*e, is listed
    in e, names e as its element, and its eight Gauss points are the tensor-grid neighbours, i fastest. *)
Theorem C31_maps : forall ne p_order, let ns := num_sub_1d p_order in let n1 := num_g_pts_1d p_order in
  n1 = ns + 1 /\
  exists m, build_maps ne ns n1 = Ok m /\
  forall e k j i, e < ne -> k < ns -> j < ns -> i < ns ->
    let cell := i + j * ns + k * ns * ns + ns * ns * ns * e in
    cells_in_elem m ns e (i + j * ns + k * ns * ns) = Ok cell /\
    elems_in_cell m cell = Ok e /\
    forall l, l < 8 -> gauss_in_cell m cell l =
      Ok ((i + l mod 2) + (j + l / 2 mod 2) * n1 + (k + l / 4) * n1 * n1 + n1 * n1 * n1 * e).
Proof.
  intros ne p ns n1. split; [unfold n1, ns, num_g_pts_1d, num_sub_1d; destruct (Nat.eqb_spec p 0); lia|].
  apply refined_maps.
Qed.
Print Assumptions C31_maps.

(** every refined cell id below the total belongs to exactly one element and one sub-cell position *)
Theorem C31_cells_partition : forall ne ns c, c < ne * ns * ns * ns ->
  exists e k j i, (e < ne /\ k < ns /\ j < ns /\ i < ns /\ c = i + j * ns + k * ns * ns + ns * ns * ns * e) /\
    forall e' k' j' i', k' < ns -> j' < ns -> i' < ns -> c = i' + j' * ns + k' * ns * ns + ns * ns * ns * e' ->
      e' = e /\ k' = k /\ j' = j /\ i' = i.
Proof. exact refined_cells_unique. Qed.
Print Assumptions C31_cells_partition.

(** the nodes of a refined cell are the merged nodes of its eight Gauss points, all valid node ids *)
Theorem C31_cell_nodes : forall ne p_order keys m,
  let ns := num_sub_1d p_order in let n1 := num_g_pts_1d p_order in
  length keys = ne * n1 * n1 * n1 -> merge_nodes keys = Ok m ->
  exists nic, build_cell_nodes ne ns n1 m = Ok nic /\
  forall e k j i l, e < ne -> k < ns -> j < ns -> i < ns -> l < 8 ->
    let cell := i + j * ns + k * ns * ns + ns * ns * ns * e in
    exists n, getu nic (cell * 8 + l) = Ok n /\ n < mg_num m /\
      node_in_gauss m ((i + l mod 2) + (j + l / 2 mod 2) * n1 + (k + l / 4) * n1 * n1 + n1 * n1 * n1 * e) = Ok n.
Proof.
  intros ne p keys m ns n1. apply refined_nodes. unfold n1, ns, num_g_pts_1d, num_sub_1d. destruct (Nat.eqb_spec p 0); lia.
Qed.
Print Assumptions C31_cell_nodes.

Example C31_nonvacuous : exists m nic r, build_maps 2 2 3 = Ok r /\ merge_nodes (seq 0 54) = Ok m /\
  build_cell_nodes 2 2 3 m = Ok nic /\ gauss_in_cell r 15 7 = Ok 53 /\ elems_in_cell r 15 = Ok 1 /\
  getu nic (15 * 8 + 7) = Ok 53 /\ gauss_in_cell r 8 0 = Ok 27.
Proof. do 3 eexists. split; [vm_compute; reflexivity|]. split; [vm_compute; reflexivity|]. split; [vm_compute; reflexivity|]. vm_compute. auto. Qed.
