(** Shape functions: partition of unity, linear precision, nodality, agreement of the local basis of
    physical_position with basis. *)
From Coq Require Import List Reals Arith Lia Lra.
Import ListNotations.
Require Import Verif.Base Verif.RSum Verif.Model_Shape Verif.Spec_Shape Verif.Proof_Shape.
Local Open Scope nat_scope.

Ltac rcbv := cbv -[Rplus Rmult Rminus Rdiv Ropp Rinv IZR].
Lemma shape_unity E x : rsum (e_nv E) (fun v => shapeN E v x) = 1%R.
Proof. destruct E; rcbv; generalize (x 0) (x 1) (x 2) (x 3); intros; field. Qed.
Lemma shape_linear E x d : d < e_dim E -> rsum (e_nv E) (fun v => shapeN E v x * refc E v d)%R = x d.
Proof.
  intros Hd. destruct E; cbn [e_dim] in Hd;
  (destruct d as [|[|[|[|d]]]]; try (exfalso; lia)); rcbv; generalize (x 0) (x 1) (x 2) (x 3); intros; field.
Qed.
Lemma posb_same E x v : v < e_nv E -> table (e_posb E (pt (e_dim E) x) (repeat None (e_nv E))) v = shapeN E v x.
Proof. intros Hv. destruct E; reflexivity. Qed.
