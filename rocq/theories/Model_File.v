(** The text of an Ensight Gold geometry file after its eight header lines, as tokens. *)
From Coq Require Import Reals List Arith ZArith.
Import ListNotations.
Require Import Verif.Base Verif.Model_Box Verif.Model_Average.
Local Open Scope nat_scope.

(** mesh_tools/box_mesh_creator/meshbox.cpp:527-548 (and examples/average/test/average.cpp:1146-1170): the
    count of points, the coordinates, the word hexa8, the count of cells, their point numbers.  The first
    eight lines (517-525, constant) are those read_mesh skips. *)
Definition geo_text (np : nat) (xs : list R) (nc : nat) (cs : list Z) : list token :=
  TInt (Z.of_nat np) :: map TNum xs ++ TWord :: TInt (Z.of_nat nc) :: map TInt cs.

(** meshbox.cpp:107-455 main with the geometry file it writes; [fmt] is %12.5e followed by reading back *)
Definition meshbox_file (fmt : R -> R) (ni nj nk : nat) (lx ly lz sx sy sz : R) : res (list token) :=
  let np := (ni + 1) * (nj + 1) * (nk + 1) in let nc := ni * nj * nk in
  do b <- build_box ni nj nk lx ly lz sx sy sz;
  do (xs, cs) <- ensight_geo np nc b;
  Ok (geo_text np (map fmt xs) nc cs).

(** average.cpp:1126-1170: the geometry file of a dump, after its eight header lines *)
Definition dump_text (nn nc : nat) (d : dump) : list token := geo_text nn (du_coords d) nc (map Z.of_nat (du_cells d)).
