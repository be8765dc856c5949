(** Property theorems C32, C33, C41, C52, C54 (geometry and spatial hashing of swage.cpp / geometry.cpp).
    Doubles are modelled by exact reals. *)
From Coq Require Import Reals List Arith ZArith Lra Lia.
Import ListNotations.
Require Import Verif.Base Verif.RBase Verif.RSum Verif.Spec_Patch Verif.Spec_Vol Verif.Model_Patch Verif.Model_Geom Verif.Model_Vol
  Verif.Proof_Geom Verif.Proof_Tri Verif.Proof_Vol.
Open Scope R_scope.

(** ---- C32 ---- *)
(** The refined position of reference corner v is vertex v of the cell. *)
Theorem C32_corners : forall X N e v p dim, (v < 8)%nat ->
  (forall d, (d < 3)%nat -> p d = 2 * INR (corner_coord v d) - 1) ->
  refined_point X N e p dim = X (N e v) dim.
Proof. intros X N e v p dim Hv Hp. exact (tri_corner (fun v => X (N e v) dim) v p Hv Hp). Qed.
Print Assumptions C32_corners.

(** On a parallelepiped (origin o, edges a b c) the placement is affine. *)
Theorem C32_affine : forall X N e p dim o a b c,
  (forall v, (v < 8)%nat -> X (N e v) dim =
     o + INR (corner_coord v 0) * a + INR (corner_coord v 1) * b + INR (corner_coord v 2) * c) ->
  refined_point X N e p dim = o + (1 + p 0%nat) / 2 * a + (1 + p 1%nat) / 2 * b + (1 + p 2%nat) / 2 * c.
Proof. intros X N e p dim o a b c H. exact (tri_affine (fun v => X (N e v) dim) p o a b c H). Qed.
Print Assumptions C32_affine.

(** Refined points stay within the coordinate range of the cell's vertices. *)
Theorem C32_convex : forall X N e p dim lo hi, (forall d, (d < 3)%nat -> -1 <= p d <= 1) ->
  (forall v, (v < 8)%nat -> lo <= X (N e v) dim <= hi) -> lo <= refined_point X N e p dim <= hi.
Proof. intros X N e p dim lo hi Hp H. exact (tri_convex (fun v => X (N e v) dim) p lo hi Hp H). Qed.
Print Assumptions C32_convex.

(** Points on a side depend only on that side's four vertices ... *)
Theorem C32_face_local : forall X X' N N' e e' p dim d s, (d < 3)%nat -> (s < 2)%nat -> p d = 2 * INR s - 1 ->
  (forall v, (v < 8)%nat -> corner_coord v d = s -> X (N e v) dim = X' (N' e' v) dim) ->
  refined_point X N e p dim = refined_point X' N' e' p dim.
Proof.
  intros X X' N N' e e' p dim d s Hd Hs Hp H.
  exact (tri_face (fun v => X (N e v) dim) (fun v => X' (N' e' v) dim) p d s Hd Hs Hp H).
Qed.
Print Assumptions C32_face_local.

(** ... so two cells glued along direction d place the points of the common side identically. *)
Theorem C32_adjacent_agree : forall X N e e' p p' dim d, (d < 3)%nat ->
  (forall v w, (v < 8)%nat -> (w < 8)%nat -> corner_coord v d = 1%nat -> corner_coord w d = 0%nat ->
     (forall d', (d' < 3)%nat -> d' <> d -> corner_coord v d' = corner_coord w d') -> N e v = N e' w) ->
  p d = 1 -> p' d = -1 -> (forall d', (d' < 3)%nat -> d' <> d -> p d' = p' d') ->
  refined_point X N e p dim = refined_point X N e' p' dim.
Proof.
  intros X N e e' p p' dim d Hd HG Hp Hp' He.
  apply (tri_glue (fun v => X (N e v) dim) (fun v => X (N e' v) dim) p p' d Hd); try assumption.
  intros v w Hv Hw H1 H2 H3. rewrite (HG v w Hv Hw H1 H2 H3). reflexivity.
Qed.
Print Assumptions C32_adjacent_agree.

Example C32_nonvacuous : exists p, (forall d, (d < 3)%nat -> -1 <= p d <= 1) /\
  (forall v, (v < 8)%nat -> 0 <= X1 (N1 0 v) 1%nat <= 20) /\ refined_point X1 N1 0 p 1 = 10.
Proof.
  exists (fun d => if Nat.eqb d 1 then 0 else -1). split; [|split].
  - intros d Hd. destruct (Nat.eqb d 1); lra.
  - intros v Hv. do 8 (destruct v as [|v]; [cbn; lra|]). lia.
  - apply (w1_point_b 1). lia.
Qed.

(** ---- C33 ---- *)
(** Refinement keys, bin width h <= 1: points in the mesh's box get non-negative keys; equal positions
    give equal keys; equal keys give the same bin in every direction, so points at least h apart in some
    direction get different keys. *)
Theorem C33_refine_keys : forall h mn mx c c', 0 < h <= 1 ->
  (forall d, (d < 3)%nat -> mn d <= c d <= mx d) -> (forall d, (d < 3)%nat -> mn d <= c' d <= mx d) ->
  exists k k', refine_key h mn mx c = Ok k /\ refine_key h mn mx c' = Ok k' /\ (0 <= k)%Z /\ (0 <= k')%Z /\
    ((forall d, (d < 3)%nat -> c d = c' d) -> k = k') /\
    (k = k' <-> forall d, (d < 3)%nat -> exists z, IZR z <= (c d - mn d + / 10 ^ 14) / h < IZR z + 1 /\
                                          IZR z <= (c' d - mn d + / 10 ^ 14) / h < IZR z + 1) /\
    ((exists d, (d < 3)%nat /\ h <= Rabs (c d - c' d)) -> k <> k').
Proof.
  intros h mn mx c c' Hh Hc Hc'. assert (H0 : 0 < h) by lra.
  eexists. eexists. split; [apply refine_key_eq; exact H0|]. split; [apply refine_key_eq; exact H0|].
  assert (N1 := key_nonneg h mn mx H0 c _ (refine_key_eq h mn mx H0 c)).
  assert (N2 := key_nonneg h mn mx H0 c' _ (refine_key_eq h mn mx H0 c')).
  split; [exact N1|]. split; [exact N2|].
  assert (I : refine_key h mn mx c = refine_key h mn mx c' -> forall d, (d < 3)%nat -> bin h mn c d = bin h mn c' d).
  { apply key_inj; [exact H0|lra|exact Hc|exact Hc']. }
  rewrite !refine_key_eq in I by exact H0.
  split; [|split].
  - intros E. unfold bin. rewrite !E by lia. reflexivity.
  - split.
    + intros E d Hd. assert (B := I (f_equal (@Ok Z) E) d Hd). specialize (Hc d Hd). specialize (Hc' d Hd).
      rewrite !(bin_spec h mn H0) in B by lra.
      exists (trunc ((c d - mn d + / 10 ^ 14) / h)). split.
      * apply trunc_bounds. apply (idx_nonneg h mn H0). lra.
      * rewrite B. apply trunc_bounds. apply (idx_nonneg h mn H0). lra.
    + intros H. assert (B : forall d, (d < 3)%nat -> bin h mn c d = bin h mn c' d).
      { intros d Hd. destruct (H d Hd) as (z & Z1 & Z2). specialize (Hc d Hd). specialize (Hc' d Hd).
        rewrite !(bin_spec h mn H0) by lra. transitivity z; [|symmetry]; apply trunc_unique; try assumption; apply (idx_nonneg h mn H0); lra. }
      rewrite !B by lia. reflexivity.
  - intros (d & Hd & Far) E. assert (B := I (f_equal (@Ok Z) E) d Hd). specialize (Hc d Hd). specialize (Hc' d Hd).
    assert (C := bin_close h mn H0 c c' d ltac:(lra) ltac:(lra) B). lra.
Qed.
Print Assumptions C33_refine_keys.

(** Patch keys: sides with the same centre get the same key; different centres whose coordinates differ by
    0 or at least 3/2 bin widths in each direction (half the cell spacing on rectilinear grids) get
    different keys, when the mesh is at least 3 bins wide in each direction. *)
Theorem C33_patch_keys_same : forall delta mn mx c c', (forall d, (d < 3)%nat -> c d = c' d) ->
  patch_key delta mn mx c = patch_key delta mn mx c'.
Proof. intros. apply patch_key_ext. assumption. Qed.
Print Assumptions C33_patch_keys_same.

Theorem C33_patch_keys_separate : forall delta mn mx c c', 0 < delta ->
  (forall d, (d < 3)%nat -> mn d <= c d <= mx d) -> (forall d, (d < 3)%nat -> mn d <= c' d <= mx d) ->
  (forall d, (d < 3)%nat -> 3 * delta <= mx d - mn d) ->
  (forall d, (d < 3)%nat -> c d = c' d \/ 3 / 2 * delta <= Rabs (c d - c' d)) ->
  (exists d, (d < 3)%nat /\ c d <> c' d) ->
  exists k k', patch_key delta mn mx c = Ok k /\ patch_key delta mn mx c' = Ok k' /\ k <> k'.
Proof.
  intros delta mn mx c c' Hd Hc Hc' Hw Hs Hne. assert (K := patch_key_sep delta mn mx Hd c c' Hc Hc' Hw Hs Hne).
  rewrite !patch_key_eq in K by exact Hd. eexists. eexists. split; [apply patch_key_eq; exact Hd|]. split; [apply patch_key_eq; exact Hd|].
  intros E. apply K. rewrite E. reflexivity.
Qed.
Print Assumptions C33_patch_keys_separate.

(** Not so in general.  (1) Two cells of a mesh with coordinates up to 90 and p_order 1: the refined
    points at (70,0,0) and (0,10,0), 70 apart, get the same key (the bin width is 10 > 1). *)
Theorem C33_refine_keys_collide_refuted : exists X N p p',
  (forall d, (d < 3)%nat -> -1 <= p d <= 1 /\ -1 <= p' d <= 1) /\
  refined_point X N 0 p 0 = 70 /\ refined_point X N 0 p' 0 = 0 /\
  refine_spacing 1 2 X N = Ok 10 /\
  point_key 1 12 2 X N (refined_point X N 0 p) = Ok 7%Z /\
  point_key 1 12 2 X N (refined_point X N 0 p') = Ok 7%Z.
Proof.
  exists X1, N1, (fun d => if Nat.eqb d 0 then 1 else -1), (fun d => if Nat.eqb d 1 then 0 else -1).
  assert (A := w1_point_a). assert (B := w1_point_b).
  split; [intros d Hd; destruct (Nat.eqb d 0), (Nat.eqb d 1); split; lra|].
  split; [apply (A 0%nat); lia|]. split; [apply (B 0%nat); lia|]. split; [exact w1_h|]. split; apply w1_key.
  - intros d Hd. rewrite A by exact Hd. destruct (Nat.eqb d 0); lra.
  - exists 7%Z, 0%Z, 0%Z. rewrite !A by lia. cbn [Nat.eqb]. repeat split; lra || lia.
  - intros d Hd. rewrite B by exact Hd. destruct (Nat.eqb d 1); lra.
  - exists 0%Z, 1%Z, 0%Z. rewrite !B by lia. cbn [Nat.eqb]. repeat split; lra || lia.
Qed.
Print Assumptions C33_refine_keys_collide_refuted.

(** (2) Two cells 0.03 and 1 thick: the opposite faces (sides 0 and 1) of the thin cell get the same
    patch key although their centres differ. *)
Theorem C33_patch_keys_collide_refuted : exists X N,
  patch_centre X N side_node 0 0 0 = 0 /\ patch_centre X N side_node 0 1 0 = 3 / 100 /\
  side_key 12 2 X N side_node 0 0 = Ok 18%Z /\ side_key 12 2 X N side_node 0 1 = Ok 18%Z.
Proof.
  exists X2, N2. destruct (w2_centre 0 ltac:(lia)) as (A & _). destruct (w2_centre 1 ltac:(lia)) as (B & _).
  split; [rewrite A; simpl; lra|]. split; [rewrite B; simpl; lra|]. split; apply w2_key; lia.
Qed.
Print Assumptions C33_patch_keys_collide_refuted.

Example C33_nonvacuous :
  let mn := fun _ : nat => 0 in let mx := fun _ : nat => 2 in
  let c := fun d : nat => if Nat.eqb d 0 then 0 else 1 / 2 in let c' := fun d : nat => if Nat.eqb d 0 then 1 else 1 / 2 in
  0 < 1 / 3 <= 1 /\ (forall d, (d < 3)%nat -> mn d <= c d <= mx d) /\ (forall d, (d < 3)%nat -> mn d <= c' d <= mx d) /\
  (forall d, (d < 3)%nat -> 3 * (1 / 3) <= mx d - mn d) /\
  (forall d, (d < 3)%nat -> c d = c' d \/ 3 / 2 * (1 / 3) <= Rabs (c d - c' d)) /\
  (exists d, (d < 3)%nat /\ c d <> c' d) /\ (exists d, (d < 3)%nat /\ 1 / 3 <= Rabs (c d - c' d)).
Proof.
  cbv zeta. split; [lra|]. split; [intros d Hd; destruct (Nat.eqb d 0); lra|]. split; [intros d Hd; destruct (Nat.eqb d 0); lra|].
  split; [intros; lra|]. split; [|split].
  - intros d Hd. destruct (Nat.eqb d 0); [right; rewrite Rabs_left; lra|left; reflexivity].
  - exists 0%nat. split; [lia|]. cbn [Nat.eqb]. lra.
  - exists 0%nat. split; [lia|]. cbn [Nat.eqb]. rewrite Rabs_left; lra.
Qed.

(** ---- C41 ---- *)
(** get_vol_hex stores, for every cell, the exact volume of the trilinear hexahedron with the cell's
    vertices (iterated integral of the Jacobian determinant), whatever the scratch arrays held. *)
Theorem C41_exact_volume : forall X N cell x0 y0 z0,
  fst (vol_hex_cell X N cell x0 y0 z0) = hex_volume (fun l d => X (N cell l) d).
Proof. exact vol_hex_exact. Qed.
Print Assumptions C41_exact_volume.

(** in particular the signed volume det(a,b,c) of a parallelepiped *)
Theorem C41_parallelepiped : forall X N cell x0 y0 z0 (o a b c : nat -> R),
  (forall l d, X (N cell l) d = o d + INR (corner_coord l 0) * a d + INR (corner_coord l 1) * b d + INR (corner_coord l 2) * c d) ->
  fst (vol_hex_cell X N cell x0 y0 z0) =
    a 0%nat * (b 1%nat * c 2%nat - c 1%nat * b 2%nat)
  - b 0%nat * (a 1%nat * c 2%nat - c 1%nat * a 2%nat)
  + c 0%nat * (a 1%nat * b 2%nat - b 1%nat * a 2%nat).
Proof.
  intros X N cell x0 y0 z0 o a b c H. rewrite vol_hex_exact.
  rewrite <- (vol_parallelepiped o a b c). rewrite !volume_simpson.
  unfold simp, D, gx, gy, gz. rewrite !H. reflexivity.
Qed.
Print Assumptions C41_parallelepiped.

(** the centre stored in the same loop omits vertices 3 and 7 and adds the previous content of the scratch
    arrays at entries 2 and 6 (unset memory for the first cell) *)
Theorem C41_stored_centre_wrong : forall X N cell x0 y0 z0 d, (d < 3)%nat ->
  snd (vol_hex_cell X N cell x0 y0 z0) d =
  (X (N cell 0%nat) d + X (N cell 1%nat) d + X (N cell 2%nat) d + X (N cell 4%nat) d + X (N cell 5%nat) d + X (N cell 6%nat) d
   + (match d with 0%nat => x0 | 1%nat => y0 | _ => z0 end) 2%nat + (match d with 0%nat => x0 | 1%nat => y0 | _ => z0 end) 6%nat) / 8.
Proof. exact vol_hex_centre. Qed.
Print Assumptions C41_stored_centre_wrong.

Example C41_nonvacuous : fst (vol_hex_cell X2 N2 1 (fun _ => 5) (fun _ => 6) (fun _ => 7)) = 1.
Proof.
  rewrite (C41_parallelepiped X2 N2 1 _ _ _ (fun d => if Nat.eqb d 0 then 3 / 100 else 0)
    (fun d => if Nat.eqb d 0 then 1 else 0) (fun d => if Nat.eqb d 1 then 1 else 0) (fun d => if Nat.eqb d 0 then 0 else if Nat.eqb d 1 then 0 else 1)).
  - cbn [Nat.eqb]. ring.
  - intros l d. 
    assert (B : forall k, (corner_coord l k = 0 \/ corner_coord l k = 1)%nat).
    { intros k. unfold corner_coord. assert ((l / 2 ^ k) mod 2 < 2)%nat by (apply Nat.mod_upper_bound; lia). lia. }
    unfold X2, N2, two_cells. cbn [fst snd Nat.eqb].
    destruct (B 0%nat) as [->| ->], (B 1%nat) as [->| ->], (B 2%nat) as [->| ->]; destruct d as [|[|d]]; cbn; lra.
Qed.

(** ---- C52 ---- *)
(** cell_coords returns the mean of the eight node coordinates whatever was stored before (so the wrong
    centre of get_vol_hex is never returned); patch_coords the mean of the four; both lie in the range of
    their nodes' coordinates, and shift with the mesh. *)
Theorem C52_cell_centre : forall X N old cell dim,
  cell_coords X N old cell dim = rsum 8 (fun l => X (N cell l) dim) / 8 /\
  (forall lo hi, (forall l, (l < 8)%nat -> lo <= X (N cell l) dim <= hi) -> lo <= cell_coords X N old cell dim <= hi) /\
  (forall s, cell_coords (fun n d => X n d + s d) N old cell dim = cell_coords X N old cell dim + s dim).
Proof.
  intros X N old cell dim. rewrite cell_coords_mean. split; [reflexivity|]. split.
  - intros lo hi H. replace 8 with (INR 8) by (simpl; lra). apply (mean_range 8 _ lo hi); [lia|exact H].
  - intros s. rewrite cell_coords_mean, rsum_plus, rsum_const. simpl INR. field.
Qed.
Print Assumptions C52_cell_centre.

Theorem C52_patch_centre : forall X P patch dim,
  patch_coords X P patch dim = rsum 4 (fun k => X (P patch k) dim) / 4 /\
  (forall lo hi, (forall k, (k < 4)%nat -> lo <= X (P patch k) dim <= hi) -> lo <= patch_coords X P patch dim <= hi) /\
  (forall s, patch_coords (fun n d => X n d + s d) P patch dim = patch_coords X P patch dim + s dim).
Proof.
  intros X P patch dim. rewrite patch_coords_mean. split; [reflexivity|]. split.
  - intros lo hi H. replace 4 with (INR 4) by (simpl; lra). apply (mean_range 4 _ lo hi); [lia|exact H].
  - intros s. rewrite patch_coords_mean, rsum_plus, rsum_const. simpl INR. field.
Qed.
Print Assumptions C52_patch_centre.

(** the boundary test: planes x/y/z = val for tags 0,1,2, cylinder for 3, sphere for 4, within 1e-8;
    every other tag (including the documented 5) matches nothing *)
Theorem C52_boundary_test : forall X P patch val, let c := patch_coords X P patch in
  (forall t, (t < 3)%nat -> check_bdy c t val = true <-> Rabs (c t - val) <= / 10 ^ 8) /\
  (check_bdy c 3 val = true <-> Rabs (sqrt (c 0%nat ^ 2 + c 1%nat ^ 2) - val) <= / 10 ^ 8) /\
  (check_bdy c 4 val = true <-> Rabs (sqrt (c 0%nat ^ 2 + c 1%nat ^ 2 + c 2%nat ^ 2) - val) <= / 10 ^ 8) /\
  (forall t, (4 < t)%nat -> check_bdy c t val = false).
Proof.
  intros X P patch val c. split; [intros t Ht; apply check_plane; exact Ht|]. split; [apply check_cyl|].
  split; [apply check_sph|]. intros t Ht. apply check_other. exact Ht.
Qed.
Print Assumptions C52_boundary_test.

(** a patch all of whose nodes lie on the plane is on it *)
Theorem C52_plane_patches_found : forall X P patch t val, (t < 3)%nat ->
  (forall k, (k < 4)%nat -> X (P patch k) t = val) -> check_bdy (patch_coords X P patch) t val = true.
Proof.
  intros X P patch t val Ht H. apply check_plane; [exact Ht|]. rewrite patch_coords_mean.
  rewrite (rsum_ext 4 _ (fun _ => val)) by exact H. rewrite rsum_const. simpl INR.
  replace ((1 + 1 + 1 + 1) * val / 4 - val) with 0 by field. rewrite Rabs_R0. left. apply inv_pow_pos.
Qed.
Print Assumptions C52_plane_patches_found.

Example C52_nonvacuous : cell_coords X2 N2 99 0 1 = 1 / 2 /\
  check_bdy (patch_coords X2 (fun s k => N2 0 (side_node s k)) 0) 0 0 = true.
Proof.
  split; [unfold cell_coords; cbn; lra|]. apply C52_plane_patches_found; [lia|].
  intros k Hk. do 4 (destruct k as [|k]; [cbn; lra|]). lia.
Qed.

(** ---- C54 ---- *)
(** The bin width of both spatial hashes is derived from the smallest node distance of the LAST cell only
    (all 28 node pairs of it are considered, nothing of the other cells); with no cells it is unset. *)
Theorem C54_spacing_from_last_cell : forall nc X N p_order,
  (forall a b, (a < 8)%nat -> (b < 8)%nat -> node_dist (fun l d => X (N nc l) d) a b <= 10 ^ 64) ->
  exists m,
    (forall a b, (a < 8)%nat -> (b < 8)%nat -> a <> b -> m <= sqrt ((X (N nc a) 0%nat - X (N nc b) 0%nat) ^ 2 +
       (X (N nc a) 1%nat - X (N nc b) 1%nat) ^ 2 + (X (N nc a) 2%nat - X (N nc b) 2%nat) ^ 2)) /\
    (exists a b, (a < 8)%nat /\ (b < 8)%nat /\ a <> b /\ m = sqrt ((X (N nc a) 0%nat - X (N nc b) 0%nat) ^ 2 +
       (X (N nc a) 1%nat - X (N nc b) 1%nat) ^ 2 + (X (N nc a) 2%nat - X (N nc b) 2%nat) ^ 2)) /\
    patch_spacing (S nc) X N = Ok (m / 3) /\
    refine_spacing p_order (S nc) X N = Ok (m / (7 * (if Nat.eqb p_order 0 then 1 else INR p_order))).
Proof.
  intros nc X N p H. destruct (spacing_last_cell nc X N p H) as (m & (A & B) & C & D). exists m. auto.
Qed.
Print Assumptions C54_spacing_from_last_cell.

Theorem C54_no_cells : forall X N p_order, patch_spacing 0 X N = Err Uninit /\ refine_spacing p_order 0 X N = Err Uninit.
Proof. intros. split; reflexivity. Qed.
Print Assumptions C54_no_cells.

(** hence not the smallest distance in the mesh: the thin cell of the witness mesh has nodes 0.03 apart,
    the spacing is 1/3 *)
Theorem C54_not_global_minimum_refuted : exists X N,
  node_dist (fun l d => X (N 0%nat l) d) 0 1 = 3 / 100 /\ patch_spacing 2 X N = Ok (1 / 3).
Proof.
  exists X2, N2. split; [|exact w2_delta]. rewrite node_dist_eq. 
  match goal with |- sqrt ?x = _ => replace x with (3 / 100 * (3 / 100)) by (cbn; lra) end. apply sqrt_square. lra.
Qed.
Print Assumptions C54_not_global_minimum_refuted.
