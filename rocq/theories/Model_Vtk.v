(** io/vtk_io.cpp: the exchange of meshes with VTK.
    VTK is not part of /repo.  What the code uses of it enters here as follows:
    - [pif order I J K]: vtkLagrangeHexahedron::PointIndexFromIJK (an argument);
    - [rnd]: what a coordinate becomes by SetPoint followed by GetPoint (vtkNew<vtkPoints> holds
      single precision by default) (an argument);
    - an unstructured grid is its points, its cells (type, list of point ids) and its scalars;
    - a point that was never set is unset memory; reading past a cell's id list is out of bounds;
    - the readers and writers of files are arguments.
    Coordinates and solution values have an arbitrary type D: the code only copies them.  Copying
    unset coordinates copies the absence of a value.  Ids are unbounded naturals; int conversions
    are exact. *)
From Coq Require Import List Arith NArith Ascii Bool.
Import ListNotations.
Require Import Verif.Base Verif.Model_Common Verif.Model_Ref.
Local Open Scope nat_scope.

Inductive cell_type : Type := LagrangeHex | TriquadraticHex | OtherCell.

Record grid (D : Type) : Type := Grid { g_num_points : nat; g_points : list (option D);
  g_cells : list (cell_type * list (option nat)); g_scalars : list (option D) }.
Arguments Grid {D}. Arguments g_num_points {D}. Arguments g_points {D}. Arguments g_cells {D}. Arguments g_scalars {D}.

(** the part of swage's mesh_t that is used: elem_order, num_nodes, num_elems, node_coords (three
    columns), nodes_in_elem (row length m_width) *)
Record mesh (D : Type) : Type := Mesh { m_order : nat; m_num_nodes : nat; m_num_elems : nat;
  m_coords : list (option D); m_width : nat; m_conn : list (option nat) }.
Arguments Mesh {D}. Arguments m_order {D}. Arguments m_num_nodes {D}. Arguments m_num_elems {D}. Arguments m_coords {D}. Arguments m_width {D}. Arguments m_conn {D}.

(** std::pow(num_verts_per_dim, 3) *)
Definition verts_per_elem (elem_order : nat) : nat := Nat.pow (elem_order + 1) 3.

(** vtk_io.cpp:9-42 make_vtk_vert_map; the caller's array is [map] *)
Definition make_vtk_vert_map (pif : nat -> nat -> nat -> nat -> nat) (elem_order : nat) (reverse : bool) (map : list (option nat)) : res (list (option nat)) :=
  let nv := elem_order + 1 in
  let radices := [N.of_nat nv; N.of_nat nv; N.of_nat nv] in
  loop nv (fun I s => loop nv (fun J s => loop nv (fun K s =>
    do swage_vert_id <- mixed_radix_to_base_10 radices [N.of_nat I; N.of_nat J; N.of_nat K];
    let vtk_vert_id := pif elem_order I J K in
    if negb reverse then set s (N.to_nat swage_vert_id) (Some vtk_vert_id)
    else set s vtk_vert_id (Some (N.to_nat swage_vert_id))) s) s) map.

(** swage/swage.cpp:472-481 init_nodes, 364-430 init_element (see Model_Ref): the parts used here *)
Definition init_nodes {D} (n : nat) (m : mesh D) : mesh D := Mesh (m_order m) n (m_num_elems m) (repeat None (n * 3)) (m_width m) (m_conn m).
Definition init_elements {D} (e_order num_elem : nat) (m : mesh D) : mesh D :=
  let w := ms_nodes_in_elem (init_element e_order 3 num_elem) in
  Mesh e_order (m_num_nodes m) num_elem (m_coords m) w (repeat None (num_elem * w)).

(** vtk_io.cpp:91-148 init_swage_mesh: a thrown VtkGridError leaves the caller's mesh as it is then *)
Inductive outcome (D : Type) : Type := Thrown (cell : nat) (m : mesh D) | Done (m : mesh D).
Arguments Thrown {D}. Arguments Done {D}.

Fixpoint first_bad (id : nat) (cells : list (cell_type * list (option nat))) : option nat :=
  match cells with
  | [] => None
  | (LagrangeHex, _) :: t | (TriquadraticHex, _) :: t => first_bad (S id) t
  | (OtherCell, _) :: _ => Some id
  end.

Definition init_swage_mesh {D} (pif : nat -> nat -> nat -> nat -> nat) (elem_order : nat) (g : grid D) (m : mesh D) : res (outcome D) :=
  let m := init_nodes (g_num_points g) m in
  do coords <- loop (g_num_points g) (fun v c =>
    do x0 <- get (g_points g) (v * 3 + 0); do x1 <- get (g_points g) (v * 3 + 1); do x2 <- get (g_points g) (v * 3 + 2);
    do c <- set c (v * 3 + 0) x0; do c <- set c (v * 3 + 1) x1; set c (v * 3 + 2) x2) (m_coords m);
  let m := Mesh (m_order m) (m_num_nodes m) (m_num_elems m) coords (m_width m) (m_conn m) in
  match first_bad 0 (g_cells g) with
  | Some c => Ok (Thrown c m)
  | None =>
      let num_elems := length (g_cells g) in
      let m := init_elements elem_order num_elems m in
      let npe := verts_per_elem elem_order in
      do vert_map <- make_vtk_vert_map pif elem_order true (repeat None npe);
      do conn <- loop num_elems (fun e c =>
        do cell <- get (g_cells g) e;
        loop npe (fun vtk c => do gid <- getu (snd cell) vtk; do swg <- getu vert_map vtk; set c (e * m_width m + swg) (Some gid)) c) (m_conn m);
      Ok (Done (Mesh (m_order m) (m_num_nodes m) (m_num_elems m) (m_coords m) (m_width m) conn))
  end.

(** vtk_io.cpp:163-228 init_vtk_grid; [solution] has [sw] columns.  The ids of the one hex object are
    overwritten element by element and copied by InsertNextCell. *)
Definition init_vtk_grid {D} (pif : nat -> nat -> nat -> nat -> nat) (rnd : D -> D) (m : mesh D) (sw : nat) (solution : list (option D)) : res (grid D) :=
  let nv := m_num_nodes m in
  let npe := verts_per_elem (m_order m) in
  do vert_map <- make_vtk_vert_map pif (m_order m) false (repeat None npe);
  do (points, sol, hex, elems) <- loop (m_num_elems m) (fun e '(points, sol, hex, elems) =>
    do (points, sol, hex) <- loop npe (fun s '(points, sol, hex) =>
      do gid <- getu (m_conn m) (e * m_width m + s);
      do x <- get (m_coords m) (gid * 3 + 0); do y <- get (m_coords m) (gid * 3 + 1); do z <- get (m_coords m) (gid * 3 + 2);
      do points <- set points (gid * 3 + 0) (option_map rnd x); do points <- set points (gid * 3 + 1) (option_map rnd y); do points <- set points (gid * 3 + 2) (option_map rnd z);
      do vtk <- getu vert_map s;
      do hex <- set hex vtk (Some gid);
      do sv <- get solution (e * sw + s);
      do sol <- set sol gid sv;
      Ok (points, sol, hex)) (points, sol, hex);
    Ok (points, sol, hex, elems ++ [(LagrangeHex, hex)])) (repeat None (nv * 3), repeat None nv, repeat None npe, []);
  Ok (Grid nv points elems sol).

(** vtk_io.cpp:53-60, 233-242: the extension, lower case (the C locale's tolower) *)
Definition dot : ascii := "."%char.
Fixpoint from_last_dot (name : list ascii) : option (list ascii) :=
  match name with
  | [] => None
  | c :: t => match from_last_dot t with Some e => Some e | None => if Ascii.eqb c dot then Some (c :: t) else None end
  end.
Definition tolower (c : ascii) : ascii :=
  let n := nat_of_ascii c in if (65 <=? n) && (n <=? 90) then ascii_of_nat (n + 32) else c.
Definition extension (name : list ascii) : list ascii :=
  map tolower (match from_last_dot name with Some e => e | None => [] end).

Inductive format : Type := XmlUnstructured | LegacyUnstructured.
(** vtk_io.cpp:64-75 and 246-256: the branch taken *)
Fixpoint chars_eqb (a b : list ascii) : bool :=
  match a, b with [], [] => true | x :: a, y :: b => Ascii.eqb x y && chars_eqb a b | _, _ => false end.
Definition choose_format (name : list ascii) : option format :=
  if chars_eqb (extension name) ["."; "v"; "t"; "u"]%char then Some XmlUnstructured
  else if chars_eqb (extension name) ["."; "v"; "t"; "k"]%char then Some LegacyUnstructured else None.

(** vtk_io.cpp:48-78 read_grid and 230-257 write_grid over a file store; G is the type of grids, F of
    file contents; [None] is the null grid that read_grid returns for other extensions *)
Definition read_grid {G F} (decode : format -> option F -> G) (fs : list ascii -> option F) (name : list ascii) : option G :=
  match choose_format name with Some f => Some (decode f (fs name)) | None => None end.
Definition write_grid {G F} (encode : format -> G -> F) (g : G) (fs : list ascii -> option F) (name : list ascii) : list ascii -> option F :=
  match choose_format name with
  | Some f => fun n => if chars_eqb n name then Some (encode f g) else fs n
  | None => fs
  end.
