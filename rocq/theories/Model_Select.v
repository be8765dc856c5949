(** Model of element_selector (elements/elements.h:1141-1206, elements/elements.cpp:6077-6190) and of calls through the
    base-class pointers Element2D* / Element3D* (elements/elements.h:232-320). *)
From Coq Require Import List Reals Arith.
Require Import Verif.Base Verif.Model_Shape.
Import ListNotations.
Local Open Scope nat_scope.

(** elements/elements.h:1141-1163: enum elem_types::elem_type *)
Inductive elem_type : Set := T_Quad4 | T_Quad8 | T_Quad12 | T_QuadN | T_Hex8 | T_Hex20 | T_Hex32 | T_HexN.
Definition elem_type_code (t : elem_type) : nat :=
  match t with T_Quad4 => 0 | T_Quad8 => 1 | T_Quad12 => 2 | T_QuadN => 3 | T_Hex8 => 4 | T_Hex20 => 5 | T_Hex32 => 6 | T_HexN => 7 end.

(** A pointer variable: None is the unset (indeterminate) pointer, Some E points to the selector's object of class E.
    Simplified: the objects hold no state but the class tables, so a pointer is the class it points to; the reference
    returned by ref_locs is not written through. *)
Definition ptr := option elem.

(** elements/elements.cpp:6080-6127: choose_3Delem_type; the case HexN assigns nothing; default is Hex8 *)
Definition choose_3Delem_type (t : elem_type) (p : ptr) : ptr :=
  match t with
  | T_Hex8 => Some Hex8
  | T_Hex20 => Some Hex20
  | T_Hex32 => Some Hex32
  | T_HexN => p
  | _ => Some Hex8
  end.

(** elements/elements.cpp:6133-6187: choose_2Delem_type; the case QuadN assigns nothing; default is Quad4 *)
Definition choose_2Delem_type (t : elem_type) (p : ptr) : ptr :=
  match t with
  | T_Quad4 => Some Quad4
  | T_Quad8 => Some Quad8
  | T_Quad12 => Some Quad12
  | T_QuadN => p
  | _ => Some Quad4
  end.

(** a program that calls the selector for each type of a list in turn, on one pointer variable *)
Definition choose_all (f : elem_type -> ptr -> ptr) (h : list elem_type) (p : ptr) : ptr := fold_left (fun q t => f t q) h p.

(** a virtual call through the pointer (elements/elements.h:232-320); an unset pointer may not be read *)
Definition deref (p : ptr) : res elem := match p with Some E => Ok E | None => Err Uninit end.
(** basis / physical_position / partial_xi_basis, partial_eta_basis, partial_mu_basis / vert_node_map through the pointer *)
Definition p_basis (p : ptr) (xi : list R) (out : list (option R)) := do E <- deref p; e_basis E xi out.
Definition p_position (p : ptr) (xp : list (option R)) (xi vertices : list R) := do E <- deref p; e_position E xp xi vertices.
Definition p_partial (p : ptr) (d : nat) (xi : list R) (out : list (option R)) := do E <- deref p; e_partial E d xi out.
Definition p_vert_node_map (p : ptr) (v : nat) := do E <- deref p; e_vert_node_map E v.
(** num_verts, num_nodes, num_basis (elements/elements.h:409-411, 482-484, 555-557, 715-717, 796-798, 885-887;
    elements.cpp:3314-3325, 3496-3507, 3758-3769, 4288-4299, 4578-4589, 5052-5063) *)
Definition e_num_verts (E : elem) : nat :=
  match E with Quad4 => 4 | Quad8 => 8 | Quad12 => 12 | Hex8 => 8 | Hex20 => 20 | Hex32 => 32 | Tess16 => 16 end.
Definition e_num_nodes (E : elem) : nat :=
  match E with Quad4 => 4 | Quad8 => 8 | Quad12 => 12 | Hex8 => 8 | Hex20 => 20 | Hex32 => 32 | Tess16 => 16 end.
Definition e_num_basis (E : elem) : nat :=
  match E with Quad4 => 4 | Quad8 => 8 | Quad12 => 12 | Hex8 => 8 | Hex20 => 20 | Hex32 => 32 | Tess16 => 16 end.
Definition p_num_verts (p : ptr) := do E <- deref p; Ok (e_num_verts E).
Definition p_num_nodes (p : ptr) := do E <- deref p; Ok (e_num_nodes E).
Definition p_num_basis (p : ptr) := do E <- deref p; Ok (e_num_basis E).
(** ref_locs (3D classes; elements/elements.cpp:4415-4420, 4840-4845, 5337-5342): row-major num_verts x dim view of ref_vert *)
Definition p_ref_locs (p : ptr) (v d : nat) : res R := do E <- deref p; get (e_ref E) (v * e_dim E + d).
