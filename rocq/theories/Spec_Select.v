(** Specification vocabulary for element selection: what the caller asked for, in terms of points and functions only. *)
From Coq Require Import List Reals Arith.
Require Import Verif.Base Verif.RSum Verif.Model_Shape Verif.Spec_Shape Verif.Model_Select.
Import ListNotations.
Local Open Scope nat_scope.

(** space dimension and number of vertices of the named types (N types: decided at run time, not selectable) *)
Definition named (t : elem_type) : option (nat * nat) :=
  match t with
  | T_Quad4 => Some (2, 4) | T_Quad8 => Some (2, 8) | T_Quad12 => Some (2, 12)
  | T_Hex8 => Some (3, 8) | T_Hex20 => Some (3, 20) | T_Hex32 => Some (3, 32)
  | T_QuadN | T_HexN => None
  end.
(** the routines behind pointer p evaluate a basis of nv functions in dim variables: N is nodal at the points P,
    sums to one and reproduces the coordinates; positions are the vertex combinations (32-node element excepted, C44) and
    the partial routines give the derivatives (direction xi of the 20- and 32-node elements excepted, C45) *)
Definition serves (p : ptr) (dim nv : nat) (P : nat -> vec) : Prop :=
  exists (N : nat -> vec -> R),
    p_num_verts p = Ok nv /\ p_num_basis p = Ok nv /\
    (forall x out, nv <= length out -> exists out', p_basis p (pt dim x) out = Ok out' /\ writes nv out out' (fun v => N v x)) /\
    (forall x, rsum nv (fun v => N v x) = 1%R) /\
    (forall x d, d < dim -> rsum nv (fun v => N v x * P v d)%R = x d) /\
    (forall v w, v < nv -> w < nv -> N v (P w) = if v =? w then 1%R else 0%R) /\
    (nv <> 32 -> forall x vertices xp, nv * dim <= length vertices -> dim <= length xp ->
       exists xp', p_position p xp (pt dim x) vertices = Ok xp' /\
         writes dim xp xp' (fun d => rsum nv (fun v => nth (v * dim + d) vertices 0 * N v x)%R)) /\
    (forall d x out, d < dim -> (d = 0 -> nv <> 20 /\ nv <> 32) -> nv <= length out ->
       exists out' D, p_partial p d (pt dim x) out = Ok out' /\ writes nv out out' D /\ forall v, v < nv -> is_partial (N v) d x (D v)).
(** every use of the pointer is a read of an unset variable *)
Definition unusable (p : ptr) : Prop :=
  (forall xi out, p_basis p xi out = Err Uninit) /\ (forall xp xi vs, p_position p xp xi vs = Err Uninit) /\
  (forall d xi out, p_partial p d xi out = Err Uninit) /\ (forall v, p_vert_node_map p v = Err Uninit) /\
  p_num_verts p = Err Uninit /\ p_num_nodes p = Err Uninit /\ p_num_basis p = Err Uninit /\
  (forall v d, p_ref_locs p v d = Err Uninit).
(** the last type of a history that is not the excluded one *)
Definition last_but (is_N : elem_type -> Prop) (h : list elem_type) (t : elem_type) : Prop :=
  exists h1 h2, h = h1 ++ t :: h2 /\ ~ is_N t /\ forall s, In s h2 -> is_N s.
