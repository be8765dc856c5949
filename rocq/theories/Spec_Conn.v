(** Specification vocabulary for mesh connectivity, independent of the builders. *)
From Coq Require Import List Arith Sorted.
Import ListNotations.

(** a mesh of [ncells] cells with K nodes each, ids below [nnodes], stored cell by cell *)
Definition mesh_ok (K ncells nnodes : nat) (nodes : list nat) : Prop :=
  length nodes = ncells * K /\ Forall (fun n => n < nnodes) nodes.

(** node [n] is the [l]-th node of cell [c] *)
Definition has_node (K : nat) (nodes : list nat) (c l n : nat) : Prop :=
  l < K /\ nth_error nodes (c * K + l) = Some n.

(** in how many local positions cell [c] has node [n] *)
Definition mult (K : nat) (nodes : list nat) (c n : nat) : nat :=
  length (filter (fun l => match nth_error nodes (c * K + l) with Some x => Nat.eqb x n | None => false end)
                 (seq 0 K)).

(** cells [c] and [d] share a node *)
Definition share_node (K : nat) (nodes : list nat) (c d : nat) : Prop :=
  exists l l' n, has_node K nodes c l n /\ has_node K nodes d l' n.
