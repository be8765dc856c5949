(** Shape functions: derivatives. *)
From Coq Require Import List Reals Arith Lia Lra.
Import ListNotations.
Require Import Verif.Base Verif.RSum Verif.RDer Verif.Model_Shape Verif.Spec_Shape Verif.Proof_Shape Verif.Proof_Shape3.
Local Open Scope nat_scope.
(** the entries for which the partial routine is right: all but two edge groups of the xi partials of Hex20 and Hex32 *)
Definition der_good (E : elem) (d v : nat) : bool :=
  match E, d with
  | Hex20, 0 => (v <? 8) || (v =? 8) || (v =? 10) || (v =? 12) || (v =? 14)
  | Hex32, 0 => (v <? 8) || ((16 <=? v) && (v <? 24))
  | _, _ => true
  end%bool.
Ltac der_entry :=
  match goal with |- is_partial (shapeN ?E ?v) ?d ?x (shapeD ?E ?d ?v ?x) =>
    let f := eval cbv -[Rplus Rmult Rminus Rdiv Ropp Rinv IZR] in (fun t => shapeN E v (subst_coord x d t)) in
    let D := eval cbv -[Rplus Rmult Rminus Rdiv Ropp Rinv IZR] in (shapeD E d v x) in
    change (derivable_pt_lim f (x d) D); generalize (x 0) (x 1) (x 2) (x 3); intros ? ? ? ?; der_tac; field end.
Tactic Notation "der_tab" integer(n) :=
  let v := fresh "v" in let x := fresh "x" in let H := fresh "H" in let G := fresh "G" in intros v x H G;
  do n (destruct v as [|v]; [first [discriminate G|clear; der_entry]|]); exfalso; lia.
Lemma der_quad4_0 : forall v x, v < 4 -> der_good Quad4 0 v = true -> is_partial (shapeN Quad4 v) 0 x (shapeD Quad4 0 v x).
Proof. der_tab 4. Qed.
Lemma der_quad4_1 : forall v x, v < 4 -> der_good Quad4 1 v = true -> is_partial (shapeN Quad4 v) 1 x (shapeD Quad4 1 v x).
Proof. der_tab 4. Qed.
Lemma der_quad8_0 : forall v x, v < 8 -> der_good Quad8 0 v = true -> is_partial (shapeN Quad8 v) 0 x (shapeD Quad8 0 v x).
Proof. der_tab 8. Qed.
Lemma der_quad8_1 : forall v x, v < 8 -> der_good Quad8 1 v = true -> is_partial (shapeN Quad8 v) 1 x (shapeD Quad8 1 v x).
Proof. der_tab 8. Qed.
Lemma der_quad12_0 : forall v x, v < 12 -> der_good Quad12 0 v = true -> is_partial (shapeN Quad12 v) 0 x (shapeD Quad12 0 v x).
Proof. der_tab 12. Qed.
Lemma der_quad12_1 : forall v x, v < 12 -> der_good Quad12 1 v = true -> is_partial (shapeN Quad12 v) 1 x (shapeD Quad12 1 v x).
Proof. der_tab 12. Qed.
Lemma der_hex8_0 : forall v x, v < 8 -> der_good Hex8 0 v = true -> is_partial (shapeN Hex8 v) 0 x (shapeD Hex8 0 v x).
Proof. der_tab 8. Qed.
Lemma der_hex8_1 : forall v x, v < 8 -> der_good Hex8 1 v = true -> is_partial (shapeN Hex8 v) 1 x (shapeD Hex8 1 v x).
Proof. der_tab 8. Qed.
Lemma der_hex8_2 : forall v x, v < 8 -> der_good Hex8 2 v = true -> is_partial (shapeN Hex8 v) 2 x (shapeD Hex8 2 v x).
Proof. der_tab 8. Qed.
Lemma der_hex20_0 : forall v x, v < 20 -> der_good Hex20 0 v = true -> is_partial (shapeN Hex20 v) 0 x (shapeD Hex20 0 v x).
Proof. der_tab 20. Qed.
Lemma der_hex20_1 : forall v x, v < 20 -> der_good Hex20 1 v = true -> is_partial (shapeN Hex20 v) 1 x (shapeD Hex20 1 v x).
Proof. der_tab 20. Qed.
Lemma der_hex20_2 : forall v x, v < 20 -> der_good Hex20 2 v = true -> is_partial (shapeN Hex20 v) 2 x (shapeD Hex20 2 v x).
Proof. der_tab 20. Qed.
Lemma der_hex32_0 : forall v x, v < 32 -> der_good Hex32 0 v = true -> is_partial (shapeN Hex32 v) 0 x (shapeD Hex32 0 v x).
Proof. der_tab 32. Qed.
Lemma der_hex32_1 : forall v x, v < 32 -> der_good Hex32 1 v = true -> is_partial (shapeN Hex32 v) 1 x (shapeD Hex32 1 v x).
Proof. der_tab 32. Qed.
Lemma der_hex32_2 : forall v x, v < 32 -> der_good Hex32 2 v = true -> is_partial (shapeN Hex32 v) 2 x (shapeD Hex32 2 v x).
Proof. der_tab 32. Qed.
Lemma der_tess16_0 : forall v x, v < 16 -> der_good Tess16 0 v = true -> is_partial (shapeN Tess16 v) 0 x (shapeD Tess16 0 v x).
Proof. der_tab 16. Qed.
Lemma der_tess16_1 : forall v x, v < 16 -> der_good Tess16 1 v = true -> is_partial (shapeN Tess16 v) 1 x (shapeD Tess16 1 v x).
Proof. der_tab 16. Qed.
Lemma der_tess16_2 : forall v x, v < 16 -> der_good Tess16 2 v = true -> is_partial (shapeN Tess16 v) 2 x (shapeD Tess16 2 v x).
Proof. der_tab 16. Qed.
Lemma der_tess16_3 : forall v x, v < 16 -> der_good Tess16 3 v = true -> is_partial (shapeN Tess16 v) 3 x (shapeD Tess16 3 v x).
Proof. der_tab 16. Qed.
Lemma shape_der E d v x : d < e_dim E -> v < e_nv E -> der_good E d v = true -> is_partial (shapeN E v) d x (shapeD E d v x).
Proof.
  destruct E; cbn [e_dim e_nv]; intros Hd; destruct d as [|[|[|[|d]]]]; try (exfalso; lia).
  - apply der_quad4_0.
  - apply der_quad4_1.
  - apply der_quad8_0.
  - apply der_quad8_1.
  - apply der_quad12_0.
  - apply der_quad12_1.
  - apply der_hex8_0.
  - apply der_hex8_1.
  - apply der_hex8_2.
  - apply der_hex20_0.
  - apply der_hex20_1.
  - apply der_hex20_2.
  - apply der_hex32_0.
  - apply der_hex32_1.
  - apply der_hex32_2.
  - apply der_tess16_0.
  - apply der_tess16_1.
  - apply der_tess16_2.
  - apply der_tess16_3.
Qed.

(** the point at which every wrong xi partial is seen to be wrong *)
Definition wit : vec := fun d => match d with 0 => 1/2 | 1 => 1/3 | 2 => 1/5 | _ => 0 end%R.
Ltac bad_entry :=
  match goal with |- ~ is_partial (shapeN ?E ?v) ?d ?x (shapeD ?E ?d ?v ?x) =>
    let f := eval cbv -[Rplus Rmult Rminus Rdiv Ropp Rinv IZR] in (fun t => shapeN E v (subst_coord x d t)) in
    let D := eval cbv -[Rplus Rmult Rminus Rdiv Ropp Rinv IZR] in (shapeD E d v x) in
    let K := fresh in eassert (K : derivable_pt_lim f (1/2)%R _) by (repeat der_step);
    let H := fresh in intros H; change (derivable_pt_lim f (1/2)%R D) in H;
    assert (Q := der_unique _ _ _ _ H K); cbv beta in Q; lra end.
Tactic Notation "bad_tab" integer(n) :=
  let v := fresh "v" in let H := fresh "H" in let G := fresh "G" in intros v H G;
  do n (destruct v as [|v]; [first [discriminate G|clear; bad_entry]|]); exfalso; lia.
Lemma bad_hex20 : forall v, v < 20 -> der_good Hex20 0 v = false -> ~ is_partial (shapeN Hex20 v) 0 wit (shapeD Hex20 0 v wit).
Proof. bad_tab 20. Qed.
Lemma bad_hex32 : forall v, v < 32 -> der_good Hex32 0 v = false -> ~ is_partial (shapeN Hex32 v) 0 wit (shapeD Hex32 0 v wit).
Proof. bad_tab 32. Qed.
