(** Shape functions: nodality. *)
From Coq Require Import List Reals Arith Lia Lra.
Import ListNotations.
Require Import Verif.Base Verif.RSum Verif.Model_Shape Verif.Spec_Shape Verif.Proof_Shape Verif.Proof_Shape3.
Local Open Scope nat_scope.
Ltac open_shape E v := let f := eval cbv -[Rplus Rmult Rminus Rdiv Ropp Rinv IZR] in (fun x : vec => shapeN E v x) in
  change (shapeN E v) with f.
Tactic Notation "nodal_tac" integer(n) :=
  let v := fresh "v" in let w := fresh "w" in let Hv := fresh in let Hw := fresh in intros v w Hv Hw;
  do n (destruct v as [|v]; [match goal with |- shapeN ?E ?v _ = _ => open_shape E v end;
     do n (destruct w as [|w]; [rcbv; lra|]); exfalso; lia|]); exfalso; lia.
Lemma nodal_quad4 : forall v w, v < 4 -> w < 4 -> shapeN Quad4 v (refc Quad4 w) = if v =? w then 1%R else 0%R.
Proof. nodal_tac 4. Qed.
Lemma nodal_quad8 : forall v w, v < 8 -> w < 8 -> shapeN Quad8 v (refc Quad8 w) = if v =? w then 1%R else 0%R.
Proof. nodal_tac 8. Qed.
Lemma nodal_quad12 : forall v w, v < 12 -> w < 12 -> shapeN Quad12 v (refc Quad12 w) = if v =? w then 1%R else 0%R.
Proof. nodal_tac 12. Qed.
Lemma nodal_hex8 : forall v w, v < 8 -> w < 8 -> shapeN Hex8 v (refc Hex8 w) = if v =? w then 1%R else 0%R.
Proof. nodal_tac 8. Qed.
Lemma nodal_hex20 : forall v w, v < 20 -> w < 20 -> shapeN Hex20 v (refc Hex20 w) = if v =? w then 1%R else 0%R.
Proof. nodal_tac 20. Qed.
Lemma nodal_hex32 : forall v w, v < 32 -> w < 32 -> shapeN Hex32 v (refc Hex32 w) = if v =? w then 1%R else 0%R.
Proof. nodal_tac 32. Qed.
Lemma nodal_tess16 : forall v w, v < 16 -> w < 16 -> shapeN Tess16 v (refc Tess16 w) = if v =? w then 1%R else 0%R.
Proof. nodal_tac 16. Qed.
Lemma shape_nodal E v w : v < e_nv E -> w < e_nv E -> shapeN E v (refc E w) = if v =? w then 1%R else 0%R.
Proof. destruct E; cbn [e_nv]; [apply nodal_quad4|apply nodal_quad8|apply nodal_quad12|apply nodal_hex8|apply nodal_hex20|apply nodal_hex32|apply nodal_tess16]. Qed.
