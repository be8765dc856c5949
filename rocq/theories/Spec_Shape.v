(** Specification vocabulary for shape functions (no model functions except the reference vertex tables). *)
From Coq Require Import List Reals Arith.
Require Import Verif.Base Verif.RSum Verif.Model_Shape.
Local Open Scope nat_scope.

(** the point (x 0, .., x (dim-1)) as an argument array *)
Definition pt (dim : nat) (x : vec) : list R := map x (seq 0 dim).
(** coordinate d of reference vertex v *)
Definition refc (E : elem) (v : nat) : vec := fun d => nth (v * e_dim E + d) (e_ref E) 0%R.
(** x with coordinate d replaced by t *)
Definition subst_coord (x : vec) (d : nat) (t : R) : vec := fun e => if Nat.eqb e d then t else x e.
(** array [new] is [old] with the first n entries overwritten by f, nothing else touched *)
Definition writes (n : nat) (old new : list (option R)) (f : nat -> R) : Prop :=
  length new = length old /\ (forall i, i < n -> getu new i = Ok (f i)) /\
  (forall i, n <= i -> nth_error new i = nth_error old i).
(** N is the family of functions that the element's basis routine evaluates *)
Definition basis_functions (E : elem) (N : nat -> vec -> R) : Prop :=
  forall x out, e_nv E <= length out ->
    exists out', e_basis E (pt (e_dim E) x) out = Ok out' /\ writes (e_nv E) out out' (fun v => N v x).
(** D is the partial derivative of f in direction d at x *)
Definition is_partial (f : vec -> R) (d : nat) (x : vec) (D : R) : Prop :=
  derivable_pt_lim (fun t => f (subst_coord x d t)) (x d) D.

(** ** vertex and surface tables *)
(** nodes per direction of the node grid that vert_node_map refers to *)
Definition grid_side (E : elem) : nat :=
  match E with Quad4 | Hex8 => 3 | Quad8 | Hex20 => 5 | Quad12 | Hex32 => 7 | Tess16 => 0 end.
(** coordinate d of node g of the uniform n^dim grid on [-1,1]^dim, first direction fastest *)
Definition node_coord (n g d : nat) : R := (-1 + 2 * INR ((g / n ^ d) mod n) / INR (n - 1))%R.
(** vertices whose entry in vert_to_node is wrong *)
Definition wrong_map (E : elem) : list nat :=
  match E with Quad4 => 2 :: 3 :: nil | Quad8 => 6 :: nil | Hex8 => 7 :: nil | Hex32 => 10 :: 31 :: nil | _ => nil end.
(** faces come in pairs, last direction first: face s lies in the plane x (face_dir s) = face_pos s *)
Definition face_dir (E : elem) (s : nat) : nat := e_dim E - 1 - s / 2.
Definition face_pos (s : nat) : R := (if Nat.eqb (s mod 2) 0 then -1 else 1)%R.
(** dofs per face *)
Definition face_size (E : elem) : nat :=
  match E with Quad4 => 2 | Quad8 => 3 | Quad12 => 4 | Hex8 => 4 | Hex20 => 8 | Hex32 => 12 | Tess16 => 0 end.
