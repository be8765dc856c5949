(** Model of the real-valued parts of swage/swage.cpp: centres of cells and patches, boundary tests,
    spatial hash keys of build_patch_connectivity and refine_mesh, and the trilinear placement of
    refined points.  Simplifications: double is R; (int) truncation is exact with unbounded range;
    node_coords_ and nodes_in_cell are total functions X node dim, N cell lid (their bounds are the
    subject of Model_Conn / Model_Refine); only num_dim = 3. *)
From Coq Require Import Reals List Arith ZArith.
Import ListNotations.
Require Import Verif.Base Verif.RBase.
Open Scope R_scope.

(** (int)x *)
Definition trunc (x : R) : Z := if Rle_dec 0 x then Int_part x else (- Int_part (- x))%Z.

(** ---- centres ---- *)

(** swage/swage.cpp:946-963 cell_coords: recomputed at every call, so the stored value is irrelevant.
    [old] is the previous content of cell_coords_(cell, dim). *)
Definition cell_coords (X : nat -> nat -> R) (N : nat -> nat -> nat) (old : R) (cell dim : nat) : R :=
  let zeroed := (fun _ : R => 0) old in
  fold_up 8 (fun l s => s + X (N cell l) dim) zeroed / 8.

(** swage/swage.cpp:1046-1063 patch_coords; [P patch k] is node_in_patch(patch, k) *)
Definition patch_coords (X : nat -> nat -> R) (P : nat -> nat -> nat) (patch dim : nat) : R :=
  fold_up 4 (fun k s => s + X (P patch k) dim / 4) 0.

(** swage/swage.cpp:1983-2040 check_bdy, from the patch coordinates *)
Definition near (a b : R) : bool := if Rle_dec (Rabs (a - b)) (/ 10 ^ 8) then true else false.
Definition check_bdy (c : nat -> R) (tag : nat) (val : R) : bool :=
  match tag with
  | 0%nat => near (c 0%nat) val
  | 1%nat => near (c 1%nat) val
  | 2%nat => near (c 2%nat) val
  | 3%nat => near (sqrt (c 0%nat * c 0%nat + c 1%nat * c 1%nat)) val
  | 4%nat => near (sqrt (c 0%nat * c 0%nat + c 1%nat * c 1%nat + c 2%nat * c 2%nat)) val
  | _ => false
  end.

(** ---- bounding box: swage/swage.cpp:1360-1388 (start 1e64), 2196-2215 (start 1e16) ---- *)
Definition coord_min (big : R) (nn : nat) (X : nat -> nat -> R) (dim : nat) : R :=
  fold_up nn (fun n m => Rmin m (X n dim)) big.
Definition coord_max (big : R) (nn : nat) (X : nat -> nat -> R) (dim : nat) : R :=
  fold_up nn (fun n m => Rmax m (X n dim)) (- big).

(** ---- smallest node distance: swage/swage.cpp:1399-1441, 2226-2270 ---- *)

(** the (a, b) enumeration of the 28 distances, with its "tricky indexing".
    State: (pairs so far, countA, countB, loop) *)
Definition pair_step (st : list (nat * nat) * nat * nat * nat) : list (nat * nat) * nat * nat * nat :=
  let '(acc, ca, cb, lp) := st in
  let acc' := acc ++ [(ca, cb)] in
  let cb1 := (cb + 1)%nat in
  let ca1 := (ca + 1)%nat in
  if Nat.ltb 7 cb1 then (acc', 0%nat, (1 + (lp + 1))%nat, (lp + 1)%nat) else (acc', ca1, cb1, lp).
Definition pairs28 : list (nat * nat) :=
  let '(acc, _, _, _) := fold_up 28 (fun _ st => pair_step st) ([], 0%nat, 1%nat, 0%nat) in acc.

Definition node_dist (v : nat -> nat -> R) (a b : nat) : R :=
  Rabs (sqrt ((v b 0%nat - v a 0%nat) ^ 2 + (v b 1%nat - v a 1%nat) ^ 2 + (v b 2%nat - v a 2%nat) ^ 2)).

(** 1433-1440 starts from dist(0), 2262-2269 from 1e64 *)
Definition cell_dist_min (start : R) (v : nat -> nat -> R) : R :=
  fold_left (fun m p => Rmin (node_dist v (fst p) (snd p)) m) pairs28 start.

(** the loop over cells: dist_min is re-initialised inside it; before the first cell it is unset *)
Definition patch_dist_min (nc : nat) (X : nat -> nat -> R) (N : nat -> nat -> nat) : res R :=
  match fold_up nc (fun c _ => let v := fun l d => X (N c l) d in
                               Some (cell_dist_min (node_dist v 0 1) v)) None with
  | Some d => Ok d | None => Err Uninit end.
Definition refine_dist_min (nc : nat) (X : nat -> nat -> R) (N : nat -> nat -> nat) : res R :=
  match fold_up nc (fun c _ => let v := fun l d => X (N c l) d in
                               Some (cell_dist_min (10 ^ 64) v)) None with
  | Some d => Ok d | None => Err Uninit end.

(** swage/swage.cpp:1443-1444 *)
Definition patch_spacing nc X N : res R := do d <- patch_dist_min nc X N; Ok (Rmin (10 ^ 64) d / 3).
(** swage/swage.cpp:2275-2280; p_order is at least 0 *)
Definition refine_spacing (p_order : nat) nc X N : res R :=
  do d <- refine_dist_min nc X N;
  Ok (d / (7 * (if Nat.eqb p_order 0 then 1 else INR p_order))).

(** ---- keys ---- *)

(** swage/swage.cpp:1447-1451, 1486-1509: key of a patch whose centre is c *)
Definition patch_key (delta : R) (mn mx : nat -> R) (c : nat -> R) : res Z :=
  do n0 <- rdiv (mx 0%nat - mn 0%nat + / 10 ^ 12) delta;
  do n1 <- rdiv (mx 1%nat - mn 1%nat + / 10 ^ 12) delta;
  do q0 <- rdiv (c 0%nat - mn 0%nat + / 10 ^ 12) delta;
  do q1 <- rdiv (c 1%nat - mn 1%nat + / 10 ^ 12) delta;
  do q2 <- rdiv (c 2%nat - mn 2%nat + / 10 ^ 12) delta;
  Ok (trunc (Rmax (/ 10 ^ 16) q0 + Rmax (/ 10 ^ 16) q1 * n0 + Rmax (/ 10 ^ 16) q2 * n0 * n1)).

(** swage/swage.cpp:1467-1483: centre of patch_lid s of a cell; [L s k] is the local node table *)
Definition patch_centre (X : nat -> nat -> R) (N : nat -> nat -> nat) (L : nat -> nat -> nat) (cell s dim : nat) : R :=
  fold_up 4 (fun k acc => acc + X (N cell (L s k)) dim / 4) 0.

(** swage/swage.cpp:1355-1512: the key of side s of a cell *)
Definition side_key (nn nc : nat) X N L (cell s : nat) : res Z :=
  do delta <- patch_spacing nc X N;
  patch_key delta (coord_min (10 ^ 64) nn X) (coord_max (10 ^ 64) nn X) (patch_centre X N L cell s).

(** swage/swage.cpp:2283-2296: integer number of bins *)
Definition int_bins (h : R) (mn mx : nat -> R) (d : nat) : res Z :=
  do f <- rdiv (mx d - mn d + 1 + / 10 ^ 14) h; Ok (trunc (Rmax (/ 10 ^ 16) f)).
(** swage/swage.cpp:2310-2316: integer bin of a point *)
Definition int_idx (h : R) (mn : nat -> R) (c : nat -> R) (d : nat) : res Z :=
  do f <- rdiv (c d - mn d + / 10 ^ 14) h; Ok (trunc (Rmax (/ 10 ^ 16) f)).
(** swage/swage.cpp:2319-2330 *)
Definition refine_key (h : R) (mn mx : nat -> R) (c : nat -> R) : res Z :=
  do b0 <- int_bins h mn mx 0; do b1 <- int_bins h mn mx 1;
  do i0 <- int_idx h mn c 0; do i1 <- int_idx h mn c 1; do i2 <- int_idx h mn c 2;
  Ok (i0 + i1 * b0 + i2 * b0 * b1)%Z.

(** swage/swage.cpp:2190-2333: the key of a point of the refined mesh *)
Definition point_key (p_order nn nc : nat) X N (c : nat -> R) : res Z :=
  do h <- refine_spacing p_order nc X N;
  refine_key h (coord_min (10 ^ 16) nn X) (coord_max (10 ^ 16) nn X) c.

(** ---- trilinear placement: swage/swage.cpp:2127-2140 (table), 2172-2188 ---- *)
Definition ref_vert (v d : nat) : R :=
  nth d (nth v [ [-1; -1; -1]; [1; -1; -1]; [-1; 1; -1]; [1; 1; -1];
                 [-1; -1; 1]; [1; -1; 1]; [-1; 1; 1]; [1; 1; 1] ] []) 0.
Definition tri_basis (p : nat -> R) (v : nat) : R :=
  1 / 8 * (1 + p 0%nat * ref_vert v 0) * (1 + p 1%nat * ref_vert v 1) * (1 + p 2%nat * ref_vert v 2).
(** one coordinate of the mapped point; [init v] is that coordinate of vertex v of the cell *)
Definition tri_map (init : nat -> R) (p : nat -> R) : R :=
  fold_up 8 (fun v s => s + tri_basis p v * init v) 0.
(** all three coordinates, for cell e of the initial mesh *)
Definition refined_point (X : nat -> nat -> R) (N : nat -> nat -> nat) (e : nat) (p : nat -> R) (dim : nat) : R :=
  tri_map (fun v => X (N e v) dim) p.
