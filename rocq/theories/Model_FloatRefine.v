(** Model of swage/swage.cpp:2050-2499 (refine_mesh before build_connectivity) in rounded arithmetic: [rnd] is applied to
    the result of every floating-point operation and to every decimal literal that need not be a double.  pow(x, 2.0) and sqrt
    are taken to be correctly rounded, and no multiply-add is contracted.  fmin, fmax, fabs and (int) are exact.  The
    rest of the function works on integers and is that of Model_Full.v.  Ids and keys are unbounded. *)
From Coq Require Import Reals List Arith ZArith.
Import ListNotations.
Require Import Verif.Base Verif.RBase Verif.Model_Quad Verif.Model_Geom Verif.Model_Refine Verif.Model_Ref Verif.Model_High Verif.Model_Full Verif.Model_FloatLagrange.
Local Open Scope nat_scope.

Section FloatRefine.
Context (rnd : R -> R).

(** swage/swage.cpp:63-327 lobatto_nodes_1D_tmp: literals are rounded; 80-102 compute the values *)
Definition lobatto_floats (num : Z) : list R :=
  let r6 := rnd (2 * rnd (sqrt 7)) in
  let s6 (x : R) := rnd (sqrt (rnd (rnd (1 / 21) * x))) in
  match num with
  | 4%Z => [-1; rnd (rnd (-1 / 5) * rnd (sqrt 5)); rnd (rnd (1 / 5) * rnd (sqrt 5)); 1]%R
  | 5%Z => [-1; rnd (rnd (-1 / 7) * rnd (sqrt 21)); 0; rnd (rnd (1 / 7) * rnd (sqrt 21)); 1]%R
  | 6%Z => [-1; - s6 (rnd (7 + r6)); - s6 (rnd (7 - r6)); s6 (rnd (7 - r6)); s6 (rnd (7 + r6)); 1]%R
  | _ => map rnd (swage_lobatto_nodes_tab num)
  end.

(** swage/swage.cpp:2169-2174 basis[vert_lid] *)
Definition tri_basisf (q : nat -> R) (v : nat) : R :=
  let f d := rnd (1 + rnd (q d * ref_vert v d)) in
  rnd (rnd (rnd (rnd (1 / 8) * f 0%nat) * f 1%nat) * f 2%nat).
(** swage/swage.cpp:2176-2185: one coordinate of a point *)
Definition tri_mapf (init : nat -> R) (q : nat -> R) : R :=
  fold_up 8 (fun v s => rnd (s + rnd (tri_basisf q v * init v)))%R 0%R.

(** swage/swage.cpp:2096-2189: g_points_in_mesh, as [refine_points] *)
Definition refine_pointsf (p : nat) (m : cmesh) : res (list (option R)) :=
  let n1 := num_g_pts_1d p in let ne := cm_cells m in let ng := Nat.pow n1 3 in
  do lob <- stores (repeat None n1) 0 (lobatto_floats (Z.of_nat n1));
  do (pts, _, _, _, _) <-
    loop ne (fun e '(pts, vx, vy, vz, count) =>
      do (vx, vy, vz) <- init_arrays m e (vx, vy, vz);
      loop n1 (fun k st => loop n1 (fun j st => loop n1 (fun i '(pts, vx, vy, vz, count) =>
        do x <- getu lob i; do y <- getu lob j; do z <- getu lob k;
        let q := fun d : nat => match d with 0 => x | 1 => y | _ => z end in
        do pts <- set pts (count * 3 + 0) (Some (tri_mapf (ptr vx) q));
        do pts <- set pts (count * 3 + 1) (Some (tri_mapf (ptr vy) q));
        do pts <- set pts (count * 3 + 2) (Some (tri_mapf (ptr vz) q));
        Ok (pts, vx, vy, vz, count + 1)) st) st) (pts, vx, vy, vz, count))
      (repeat None (ne * ng * 3), repeat None 8, repeat None 8, repeat None 8, 0);
  Ok pts.

(** swage/swage.cpp:2247-2250 *)
Definition node_distf (v : nat -> nat -> R) (a b : nat) : R :=
  let sq d := let x := rnd (v b d - v a d) in rnd (x * x)%R in
  Rabs (rnd (sqrt (rnd (rnd (sq 0%nat + sq 1%nat) + sq 2%nat)))).
(** swage/swage.cpp:2262-2269 *)
Definition cell_dist_minf (start : R) (v : nat -> nat -> R) : R :=
  fold_left (fun m p => Rmin (node_distf v (fst p) (snd p)) m) pairs28 start.
(** swage/swage.cpp:2226-2272 *)
Definition last_distf (m : cmesh) : res R :=
  do d <- loop (cm_cells m) (fun c _ => do v <- cell_verts m c; Ok (Some (cell_dist_minf (rnd (10 ^ 64)) v))) None;
  match d with Some d => Ok d | None => Err Uninit end.

(** swage/swage.cpp:2283-2296 *)
Definition binsf (h : R) (mx mn : nat -> R) : res (nat -> Z) :=
  loop 3 (fun i b => do f <- rdivf rnd (rnd (rnd (rnd (mx i - mn i) + 1) + rnd (/ 10 ^ 14)))%R h;
                     Ok (fset b i (trunc (Rmax (rnd (/ 10 ^ 16)) f)))) (fun _ => 0%Z).
(** swage/swage.cpp:2308-2332.  A negative key would index the hash table before its start. *)
Definition point_keyf (h : R) (mn : nat -> R) (b : nat -> Z) (pts : list (option R)) (g : nat) : res nat :=
  do idx <- loop 3 (fun i idx =>
    do c <- getu pts (g * 3 + i);
    do f <- rdivf rnd (rnd (rnd (c - mn i) + rnd (/ 10 ^ 14)))%R h;
    Ok (fset idx i (trunc (Rmax (rnd (/ 10 ^ 16)) f)))) (fun _ => 0%Z);
  let key := (idx 0%nat + idx 1%nat * b 0%nat + idx 2%nat * b 0%nat * b 1%nat)%Z in
  if Z.ltb key 0 then Err OOB else Ok (Z.to_nat key).

(** swage/swage.cpp:2196-2333: h_keys *)
Definition refine_keysf (p : nat) (m : cmesh) (pts : list (option R)) : res (list nat) :=
  do (mx, mn) <- mesh_box (rnd (10 ^ 16)) m;
  do d <- last_distf m;
  do h <- rdivf rnd d (rnd (7 * (if Nat.eqb p 0 then 1 else INR p)))%R;
  do b <- binsf h mx mn;
  loop (Nat.pow (num_g_pts_1d p) 3 * cm_cells m) (fun g ks => do k <- point_keyf h mn b pts g; Ok (ks ++ [k])) [].

(** swage/swage.cpp:2050-2499 *)
Definition refine_cellsf (p : nat) (m : cmesh) : res refined :=
  let ne := cm_cells m in let ns := num_sub_1d p in let n1 := num_g_pts_1d p in
  do pts <- refine_pointsf p m;
  do keys <- refine_keysf p m pts;
  do mg <- merge_nodes keys;
  do cs <- high_coords pts mg;
  do maps <- build_maps ne ns n1;
  do nic <- build_cell_nodes ne ns n1 mg;
  Ok {| rf_points := pts; rf_merged := mg; rf_maps := maps;
        rf_mesh := CMesh (mg_num mg) (ne * (ns * ns * ns)) cs nic |}.
End FloatRefine.
