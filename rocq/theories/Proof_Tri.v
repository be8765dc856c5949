(** Proofs about the trilinear map, the centres, and the two key-collision witnesses. *)
From Coq Require Import Reals List Arith ZArith Lra Lia.
Import ListNotations.
Require Import Verif.Base Verif.RBase Verif.RSum Verif.Model_Patch Verif.Spec_Patch Verif.Model_Geom Verif.Proof_Geom.
Open Scope R_scope.

(** reference position of corner v *)
Definition ref_corner (v d : nat) : R := 2 * INR (corner_coord v d) - 1.

Lemma tri_corner init v p : (v < 8)%nat -> (forall d, (d < 3)%nat -> p d = ref_corner v d) -> tri_map init p = init v.
Proof.
  intros Hv Hp. assert (H0 := Hp 0%nat ltac:(lia)). assert (H1 := Hp 1%nat ltac:(lia)). assert (H2 := Hp 2%nat ltac:(lia)).
  unfold tri_map, tri_basis. cbn [fold_up]. unfold ref_vert. cbn [nth]. rewrite H0, H1, H2. unfold ref_corner.
  do 8 (destruct v as [|v]; [vm_compute corner_coord; cbn [INR]; field|]). lia.
Qed.

Lemma tri_affine init p o a b c : (forall v, (v < 8)%nat ->
    init v = o + INR (corner_coord v 0) * a + INR (corner_coord v 1) * b + INR (corner_coord v 2) * c) ->
  tri_map init p = o + (1 + p 0%nat) / 2 * a + (1 + p 1%nat) / 2 * b + (1 + p 2%nat) / 2 * c.
Proof.
  intros H. unfold tri_map, tri_basis. cbn [fold_up]. unfold ref_vert. cbn [nth]. rewrite !H by lia.
  vm_compute corner_coord. cbn [INR]. field.
Qed.

Lemma tri_basis_sum p : rsum 8 (tri_basis p) = 1.
Proof. unfold tri_basis, ref_vert. cbn [rsum nth]. field. Qed.
Lemma tri_basis_nonneg p v : (forall d, (d < 3)%nat -> -1 <= p d <= 1) -> 0 <= tri_basis p v.
Proof.
  intros H. assert (H0 := H 0%nat ltac:(lia)). assert (H1 := H 1%nat ltac:(lia)). assert (H2 := H 2%nat ltac:(lia)).
  unfold tri_basis, ref_vert.
  do 8 (destruct v as [|v]; [cbn [nth]; repeat apply Rmult_le_pos; lra|]).
  destruct v; cbn [nth]; repeat apply Rmult_le_pos; lra.
Qed.
Lemma tri_map_sum init p : tri_map init p = rsum 8 (fun v => tri_basis p v * init v).
Proof. unfold tri_map. cbn [fold_up rsum]. reflexivity. Qed.

Lemma tri_convex init p lo hi : (forall d, (d < 3)%nat -> -1 <= p d <= 1) -> (forall v, (v < 8)%nat -> lo <= init v <= hi) ->
  lo <= tri_map init p <= hi.
Proof.
  intros Hp Hi. rewrite tri_map_sum. split.
  - replace lo with (rsum 8 (fun v => tri_basis p v * lo)) by (rewrite rsum_scal_r, tri_basis_sum; ring).
    apply rsum_le. intros v Hv. apply Rmult_le_compat_l; [apply tri_basis_nonneg; exact Hp|apply Hi; exact Hv].
  - replace hi with (rsum 8 (fun v => tri_basis p v * hi)) by (rewrite rsum_scal_r, tri_basis_sum; ring).
    apply rsum_le. intros v Hv. apply Rmult_le_compat_l; [apply tri_basis_nonneg; exact Hp|apply Hi; exact Hv].
Qed.

(** two cells glued along direction d: cell A's side at +1 carries the vertices of cell B's side at -1 *)
Lemma tri_glue A B p p' d : (d < 3)%nat ->
  (forall v w, (v < 8)%nat -> (w < 8)%nat -> corner_coord v d = 1%nat -> corner_coord w d = 0%nat ->
     (forall d', (d' < 3)%nat -> d' <> d -> corner_coord v d' = corner_coord w d') -> A v = B w) ->
  p d = 1 -> p' d = -1 -> (forall d', (d' < 3)%nat -> d' <> d -> p d' = p' d') ->
  tri_map A p = tri_map B p'.
Proof.
  intros Hd HG Hp Hp' He.
  assert (G : forall v w, (v < 8)%nat -> (w < 8)%nat -> 
     (corner_coord v d =? 1)%nat = true -> (corner_coord w d =? 0)%nat = true ->
     forallb (fun d' => orb (d' =? d)%nat (corner_coord v d' =? corner_coord w d')%nat) [0;1;2]%nat = true -> A v = B w).
  { intros v w Hv Hw E1 E2 E3. apply HG; [exact Hv|exact Hw|apply Nat.eqb_eq; exact E1|apply Nat.eqb_eq; exact E2|].
    intros d' Hd' Ne. rewrite forallb_forall in E3. specialize (E3 d').
    assert (In d' [0;1;2]%nat) by (destruct d' as [|[|[|d']]]; simpl; auto; lia). specialize (E3 H).
    apply Bool.orb_true_iff in E3. destruct E3 as [E3|E3]; apply Nat.eqb_eq in E3; [contradiction|exact E3]. }
  clear HG. unfold tri_map, tri_basis. cbn [fold_up]. unfold ref_vert. cbn [nth].
  destruct d as [|[|[|d]]]; [| | |lia].
  - rewrite Hp, Hp', (He 1%nat), (He 2%nat) by lia.
    rewrite <- (G 1 0)%nat, <- (G 3 2)%nat, <- (G 5 4)%nat, <- (G 7 6)%nat by (first [lia | vm_compute; reflexivity]). ring.
  - rewrite Hp, Hp', (He 0%nat), (He 2%nat) by lia.
    rewrite <- (G 2 0)%nat, <- (G 3 1)%nat, <- (G 6 4)%nat, <- (G 7 5)%nat by (first [lia | vm_compute; reflexivity]). ring.
  - rewrite Hp, Hp', (He 0%nat), (He 1%nat) by lia.
    rewrite <- (G 4 0)%nat, <- (G 5 1)%nat, <- (G 6 2)%nat, <- (G 7 3)%nat by (first [lia | vm_compute; reflexivity]). ring.
Qed.

(** on a side the map is the bilinear combination of that side's four vertices *)
Lemma tri_face init init' p d s : (d < 3)%nat -> (s < 2)%nat -> p d = 2 * INR s - 1 ->
  (forall v, (v < 8)%nat -> corner_coord v d = s -> init v = init' v) -> tri_map init p = tri_map init' p.
Proof.
  intros Hd Hs Hp Hi.
  assert (G : forall v, (v < 8)%nat -> (corner_coord v d =? s)%nat = true -> init v = init' v).
  { intros v Hv E. apply Hi; [exact Hv|apply Nat.eqb_eq; exact E]. }
  clear Hi. unfold tri_map, tri_basis. cbn [fold_up]. unfold ref_vert. cbn [nth].
  destruct s as [|[|s]]; [| |lia]; cbn [INR] in Hp; destruct d as [|[|[|d]]]; try lia; rewrite Hp.
  - rewrite (G 0%nat), (G 2%nat), (G 4%nat), (G 6%nat) by (first [lia | vm_compute; reflexivity]). ring.
  - rewrite (G 0%nat), (G 1%nat), (G 4%nat), (G 5%nat) by (first [lia | vm_compute; reflexivity]). ring.
  - rewrite (G 0%nat), (G 1%nat), (G 2%nat), (G 3%nat) by (first [lia | vm_compute; reflexivity]). ring.
  - rewrite (G 1%nat), (G 3%nat), (G 5%nat), (G 7%nat) by (first [lia | vm_compute; reflexivity]). ring.
  - rewrite (G 2%nat), (G 3%nat), (G 6%nat), (G 7%nat) by (first [lia | vm_compute; reflexivity]). ring.
  - rewrite (G 4%nat), (G 5%nat), (G 6%nat), (G 7%nat) by (first [lia | vm_compute; reflexivity]). ring.
Qed.

(** ---- centres ---- *)
Lemma cell_coords_mean X N old cell dim : cell_coords X N old cell dim = rsum 8 (fun l => X (N cell l) dim) / 8.
Proof. unfold cell_coords. cbn [fold_up rsum]. reflexivity. Qed.
Lemma patch_coords_mean X P patch dim : patch_coords X P patch dim = rsum 4 (fun k => X (P patch k) dim) / 4.
Proof. unfold patch_coords. cbn [fold_up rsum]. field. Qed.
Lemma patch_centre_mean X N L cell s dim : patch_centre X N L cell s dim = rsum 4 (fun k => X (N cell (L s k)) dim) / 4.
Proof. unfold patch_centre. cbn [fold_up rsum]. field. Qed.

Lemma mean_range n f lo hi : (0 < n)%nat -> (forall i, (i < n)%nat -> lo <= f i <= hi) -> lo <= rsum n f / INR n <= hi.
Proof.
  intros Hn H. assert (P : 0 < INR n) by (apply lt_0_INR; exact Hn). split.
  - apply (Rmult_le_reg_r (INR n)); [exact P|]. unfold Rdiv. rewrite Rmult_assoc, Rinv_l, Rmult_1_r by lra.
    rewrite Rmult_comm, <- rsum_const. apply rsum_le. intros i Hi. apply H. exact Hi.
  - apply (Rmult_le_reg_r (INR n)); [exact P|]. unfold Rdiv. rewrite Rmult_assoc, Rinv_l, Rmult_1_r by lra.
    rewrite (Rmult_comm hi), <- rsum_const. apply rsum_le. intros i Hi. apply H. exact Hi.
Qed.

Lemma check_plane c t val : (t < 3)%nat -> check_bdy c t val = true <-> Rabs (c t - val) <= / 10 ^ 8.
Proof.
  intros H. destruct t as [|[|[|t]]]; [| | |lia]; cbn [check_bdy]; unfold near; destruct (Rle_dec _ _); intuition discriminate.
Qed.
Lemma check_cyl c val : check_bdy c 3 val = true <-> Rabs (sqrt (c 0%nat ^ 2 + c 1%nat ^ 2) - val) <= / 10 ^ 8.
Proof.
  cbn [check_bdy]. unfold near. replace (c 0%nat * c 0%nat + c 1%nat * c 1%nat) with (c 0%nat ^ 2 + c 1%nat ^ 2) by ring.
  destruct (Rle_dec _ _); intuition discriminate.
Qed.
Lemma check_sph c val : check_bdy c 4 val = true <-> Rabs (sqrt (c 0%nat ^ 2 + c 1%nat ^ 2 + c 2%nat ^ 2) - val) <= / 10 ^ 8.
Proof.
  cbn [check_bdy]. unfold near.
  replace (c 0%nat * c 0%nat + c 1%nat * c 1%nat + c 2%nat * c 2%nat) with (c 0%nat ^ 2 + c 1%nat ^ 2 + c 2%nat ^ 2) by ring.
  destruct (Rle_dec _ _); intuition discriminate.
Qed.
Lemma check_other c t val : (4 < t)%nat -> check_bdy c t val = false.
Proof. intros H. do 5 (destruct t as [|t]; [lia|]). reflexivity. Qed.

(** ---- a box mesh with two cells side by side, used by both witnesses ---- *)
(** [xs] grid coordinates in direction [dir] (three of them), width [w] in the two other directions;
    node i + 2*j + 4*k where the index in direction dir runs over 0..2 *)
Definition two_cells (dir : nat) (x0 x1 x2 w : R) : (nat -> nat -> R) * (nat -> nat -> nat) :=
  (fun n d =>
     let a := (n / 4)%nat in                       (* index along dir *)
     let along := if Nat.eqb a 0 then x0 else if Nat.eqb a 1 then x1 else x2 in
     let b1 := (n mod 2)%nat in let b2 := (n / 2 mod 2)%nat in
     if Nat.eqb d dir then along
     else if Nat.eqb d (if Nat.eqb dir 0 then 1 else 0) then INR b1 * w else INR b2 * w,
   fun c l =>
     let e := fun d => corner_coord l d in
     (e (if Nat.eqb dir 0 then 1 else 0) + 2 * e (if Nat.eqb dir 2 then 1 else 2) + 4 * (e dir + c))%nat).

(** swage.h patch table, as a function *)
Definition side_node (s k : nat) : nat := nth (k + s * 4) patch_node_table 0%nat.

Lemma least_of_squares v m : 0 <= m ->
  (forall a b, (a < b < 8)%nat -> m * m <= (v a 0%nat - v b 0%nat) ^ 2 + (v a 1%nat - v b 1%nat) ^ 2 + (v a 2%nat - v b 2%nat) ^ 2) ->
  (v 0%nat 0%nat - v 1%nat 0%nat) ^ 2 + (v 0%nat 1%nat - v 1%nat 1%nat) ^ 2 + (v 0%nat 2%nat - v 1%nat 2%nat) ^ 2 = m * m ->
  least_dist v m.
Proof.
  intros Hm H E.
  assert (A : forall x, m * m <= x -> m <= sqrt x).
  { intros x Hx. rewrite <- (sqrt_square m Hm). apply sqrt_le_1_alt. exact Hx. }
  split.
  - intros a b Ha Hb Ne. apply A. destruct (Nat.lt_total a b) as [L|[L|L]]; [apply H; lia|contradiction|].
    specialize (H b a ltac:(lia)). lra.
  - exists 0%nat, 1%nat. repeat (split; [lia|]). rewrite E, sqrt_square by exact Hm. reflexivity.
Qed.

(** ---- witness 1: refine keys collide when the bin width exceeds 1 ---- *)
Definition X1 := fst (two_cells 1 0 20 90 70).
Definition N1 := snd (two_cells 1 0 20 90 70).

Lemma w1_last : least_dist (fun l d => X1 (N1 1 l) d) 70.
Proof.
  apply least_of_squares; [lra| |].
  - intros a b H. do 8 (destruct b as [|b]; [do 8 (destruct a as [|a]; [try lia; cbn; lra|]); lia|]). lia.
  - cbn. lra.
Qed.
Lemma w1_node n d : (n < 12)%nat -> (d < 3)%nat -> 0 <= X1 n d <= 90.
Proof.
  intros Hn Hd. do 12 (destruct n as [|n]; [do 3 (destruct d as [|d]; [cbn; lra|]); lia|]). lia.
Qed.
Lemma pow_big n : (1 <= n)%nat -> 10 <= 10 ^ n.
Proof. intros H. replace 10 with (10 ^ 1) at 1 by ring. apply Rle_pow; [lra|lia]. Qed.
Lemma w1_box : forall d, (d < 3)%nat ->
  coord_min (10 ^ 16) 12 X1 d = 0 /\ coord_max (10 ^ 16) 12 X1 d = (if Nat.eqb d 1 then 90 else 70).
Proof.
  assert (P : 100 <= 10 ^ 16) by (replace 100 with (10 ^ 2) by ring; apply Rle_pow; [lra|lia]).
  intros d Hd. split.
  - apply coord_min_exact; [lra| |exists 0%nat; split; [lia|]; do 3 (destruct d as [|d]; [cbn; lra|]); lia].
    intros n Hn. apply w1_node; assumption.
  - apply coord_max_exact.
    + destruct (Nat.eqb d 1); lra.
    + intros n Hn. do 12 (destruct n as [|n]; [do 3 (destruct d as [|d]; [cbn; lra|]); lia|]). lia.
    + exists 11%nat. split; [lia|]. do 3 (destruct d as [|d]; [cbn; lra|]). lia.
Qed.

Lemma eps14 : 0 < / 10 ^ 14 < 1 / 100.
Proof.
  split; [apply inv_pow_pos|]. unfold Rdiv. rewrite Rmult_1_l. apply Rinv_lt_contravar; [apply Rmult_lt_0_compat; [lra|apply pow_lt; lra]|].
  replace 100 with (10 ^ 2) by ring. apply Rlt_pow; [lra|lia].
Qed.
Lemma eps12 : 0 < / 10 ^ 12 < 1 / 100.
Proof.
  split; [apply inv_pow_pos|]. unfold Rdiv. rewrite Rmult_1_l. apply Rinv_lt_contravar; [apply Rmult_lt_0_compat; [lra|apply pow_lt; lra]|].
  replace 100 with (10 ^ 2) by ring. apply Rlt_pow; [lra|lia].
Qed.
Lemma w1_h : refine_spacing 1 2 X1 N1 = Ok 10.
Proof.
  destruct (spacing_last_cell 1 X1 N1 1) as (m & L & _ & E).
  - intros a b Ha Hb. rewrite node_dist_eq. 
    assert (D : forall l d, (l < 8)%nat -> (d < 3)%nat -> 0 <= X1 (N1 1 l) d <= 90).
    { intros l d Hl Hd. apply w1_node; [|exact Hd]. clear - Hl. do 8 (destruct l as [|l]; [cbn; lia|]). lia. }
    assert (G : forall x y, 0 <= x <= 90 -> 0 <= y <= 90 -> (x - y) ^ 2 <= 8100) by (intros; nra).
    assert (S : 300 <= 10 ^ 64).
    { apply Rle_trans with (10 ^ 3); [simpl; lra|apply Rle_pow; [lra|lia]]. }
    eapply Rle_trans; [|exact S]. rewrite <- (sqrt_square 300) by lra. apply sqrt_le_1_alt.
    assert (A := G _ _ (D a 0%nat Ha ltac:(lia)) (D b 0%nat Hb ltac:(lia))).
    assert (B := G _ _ (D a 1%nat Ha ltac:(lia)) (D b 1%nat Hb ltac:(lia))).
    assert (C := G _ _ (D a 2%nat Ha ltac:(lia)) (D b 2%nat Hb ltac:(lia))). lra.
  - rewrite E. rewrite (least_dist_unique _ _ _ L w1_last). f_equal. cbn [Nat.eqb INR]. field.
Qed.

Lemma w1_point_a d : (d < 3)%nat -> refined_point X1 N1 0 (fun d => if Nat.eqb d 0 then 1 else -1) d = (if Nat.eqb d 0 then 70 else 0).
Proof.
  intros Hd. unfold refined_point, tri_map, tri_basis, ref_vert. cbn [fold_up nth Nat.eqb].
  do 3 (destruct d as [|d]; [cbn; lra|]). lia.
Qed.
Lemma w1_point_b d : (d < 3)%nat -> refined_point X1 N1 0 (fun d => if Nat.eqb d 1 then 0 else -1) d = (if Nat.eqb d 1 then 10 else 0).
Proof.
  intros Hd. unfold refined_point, tri_map, tri_basis, ref_vert. cbn [fold_up nth Nat.eqb].
  do 3 (destruct d as [|d]; [cbn; lra|]). lia.
Qed.

Lemma w1_key c k : (forall d, (d < 3)%nat -> 0 <= c d) ->
  (exists i0 i1 i2, IZR i0 * 10 <= c 0%nat <= IZR i0 * 10 + 9 /\ IZR i1 * 10 <= c 1%nat <= IZR i1 * 10 + 9 /\
     IZR i2 * 10 <= c 2%nat <= IZR i2 * 10 + 9 /\ k = (i0 + i1 * 7 + i2 * 63)%Z) ->
  point_key 1 12 2 X1 N1 c = Ok k.
Proof.
  intros Hc (i0 & i1 & i2 & H0 & H1 & H2 & ->). unfold point_key. rewrite w1_h. cbn [bind].
  rewrite refine_key_eq by lra. f_equal.
  assert (E := eps14). set (e := / 10 ^ 14) in *.
  destruct (w1_box 0 ltac:(lia)) as (A0 & B0). destruct (w1_box 1 ltac:(lia)) as (A1 & B1). destruct (w1_box 2 ltac:(lia)) as (A2 & B2).
  assert (T : forall d i, (d < 3)%nat -> IZR i * 10 <= c d <= IZR i * 10 + 9 -> bin 10 (coord_min (10 ^ 16) 12 X1) c d = i).
  { intros d i Hd Hi. rewrite bin_spec; [|lra|rewrite (proj1 (w1_box d Hd)); apply Hc; exact Hd]. fold e.
    rewrite (proj1 (w1_box d Hd)). specialize (Hc d Hd). apply trunc_unique; lra. }
  rewrite (T 0%nat i0), (T 1%nat i1), (T 2%nat i2) by (lia || assumption). clear T.
  assert (M : forall x, 1 / 100 < x -> Rmax (/ 10 ^ 16) x = x).
  { intros x Hx. apply Rmax_right. assert (/ 10 ^ 16 < / 10 ^ 14).
    { apply Rinv_lt_contravar; [apply Rmult_lt_0_compat; apply pow_lt; lra|]. apply Rlt_pow; [lra|lia]. } fold e in H. lra. }
  assert (Z0 : bins 10 (coord_min (10 ^ 16) 12 X1) (coord_max (10 ^ 16) 12 X1) 0 = 7%Z).
  { unfold bins. fold e. rewrite A0, B0. cbn [Nat.eqb]. rewrite M by lra. apply trunc_unique; lra. }
  assert (Z1 : bins 10 (coord_min (10 ^ 16) 12 X1) (coord_max (10 ^ 16) 12 X1) 1 = 9%Z).
  { unfold bins. fold e. rewrite A1, B1. cbn [Nat.eqb]. rewrite M by lra. apply trunc_unique; lra. }
  rewrite Z0, Z1. ring.
Qed.

(** ---- witness 2: opposite faces of a thin cell get the same patch key ---- *)
Definition X2 := fst (two_cells 0 0 (3/100) (103/100) 1).
Definition N2 := snd (two_cells 0 0 (3/100) (103/100) 1).

Lemma w2_last : least_dist (fun l d => X2 (N2 1 l) d) 1.
Proof.
  apply least_of_squares; [lra| |].
  - intros a b H. do 8 (destruct b as [|b]; [do 8 (destruct a as [|a]; [try lia; cbn; lra|]); lia|]). lia.
  - cbn. lra.
Qed.
Lemma w2_box : forall d, (d < 3)%nat ->
  coord_min (10 ^ 64) 12 X2 d = 0 /\ coord_max (10 ^ 64) 12 X2 d = (if Nat.eqb d 0 then 103 / 100 else 1).
Proof.
  assert (P : 100 <= 10 ^ 64) by (replace 100 with (10 ^ 2) by ring; apply Rle_pow; [lra|lia]).
  intros d Hd. split.
  - apply coord_min_exact; [lra| |exists 0%nat; split; [lia|]; do 3 (destruct d as [|d]; [cbn; lra|]); lia].
    intros n Hn. do 12 (destruct n as [|n]; [do 3 (destruct d as [|d]; [cbn; lra|]); lia|]). lia.
  - apply coord_max_exact.
    + destruct (Nat.eqb d 0); lra.
    + intros n Hn. do 12 (destruct n as [|n]; [do 3 (destruct d as [|d]; [cbn; lra|]); lia|]). lia.
    + exists 11%nat. split; [lia|]. do 3 (destruct d as [|d]; [cbn; lra|]). lia.
Qed.
Lemma w2_delta : patch_spacing 2 X2 N2 = Ok (1 / 3).
Proof.
  rewrite patch_spacing_last. f_equal. f_equal.
  set (v := fun l d => X2 (N2 1 l) d).
  assert (L : least_dist v (cell_dist_min (node_dist v 0 1) v)).
  { apply cell_dist_min_spec. exists 0%nat, 1%nat. repeat (split; [lia|]). lra. }
  rewrite (least_dist_unique _ _ _ L w2_last). apply Rmin_right.
  apply Rle_trans with (10 ^ 0); [simpl; lra|apply Rle_pow; [lra|lia]].
Qed.
Lemma w2_centre s : (s < 2)%nat ->
  patch_centre X2 N2 side_node 0 s 0 = INR s * (3 / 100) /\ patch_centre X2 N2 side_node 0 s 1 = 1 / 2 /\
  patch_centre X2 N2 side_node 0 s 2 = 1 / 2.
Proof.
  intros Hs. destruct s as [|[|s]]; [| |lia]; unfold patch_centre; cbn; repeat split; lra.
Qed.
Lemma w2_key s : (s < 2)%nat -> side_key 12 2 X2 N2 side_node 0 s = Ok 18%Z.
Proof.
  intros Hs. unfold side_key. rewrite w2_delta. cbn [bind]. rewrite patch_key_eq by lra. f_equal.
  destruct (w2_centre s Hs) as (C0 & C1 & C2).
  destruct (w2_box 0 ltac:(lia)) as (A0 & B0). destruct (w2_box 1 ltac:(lia)) as (A1 & B1). destruct (w2_box 2 ltac:(lia)) as (A2 & B2).
  assert (E : 0 < / 10 ^ 12 < 1 / 10000).
  { split; [apply inv_pow_pos|]. unfold Rdiv. rewrite Rmult_1_l. apply Rinv_lt_contravar; [apply Rmult_lt_0_compat; [lra|apply pow_lt; lra]|].
    replace 10000 with (10 ^ 4) by ring. apply Rlt_pow; [lra|lia]. }
  assert (E16 : 0 < / 10 ^ 16 < / 10 ^ 12).
  { split; [apply inv_pow_pos|]. apply Rinv_lt_contravar; [apply Rmult_lt_0_compat; apply pow_lt; lra|]. apply Rlt_pow; [lra|lia]. }
  unfold flat, qi, nb. rewrite C0, C1, C2, A0, A1, A2, B0, B1. cbn [Nat.eqb].
  set (e := / 10 ^ 12) in *. set (f := / 10 ^ 16) in *. clearbody e f.
  assert (S01 : 0 <= INR s <= 1) by (destruct s as [|[|s]]; [simpl; lra|simpl; lra|lia]).
  rewrite !Rmax_right by lra.
  set (x := (INR s * (3 / 100) - 0 + e) / (1 / 3)). assert (Hx : 0 <= x <= 10 / 100) by (unfold x; lra). clearbody x.
  replace ((1 / 2 - 0 + e) / (1 / 3)) with (3 / 2 + 3 * e) by field.
  replace ((103 / 100 - 0 + e) / (1 / 3)) with (309 / 100 + 3 * e) by field.
  replace ((1 - 0 + e) / (1 / 3)) with (3 + 3 * e) by field.
  assert (0 < e * e < 1 / 10000) by nra. assert (0 < e * e * e < 1 / 10000) by nra.
  apply trunc_unique.
  - assert (0 <= (3 / 2 + 3 * e) * (309 / 100 + 3 * e)) by nra.
    assert (0 <= (3 / 2 + 3 * e) * (309 / 100 + 3 * e) * (3 + 3 * e)) by nra. lra.
  - ring_simplify ((3 / 2 + 3 * e) * (309 / 100 + 3 * e)). ring_simplify ((3 / 2 + 3 * e) * (309 / 100 + 3 * e) * (3 + 3 * e)).
    split; nra.
Qed.
