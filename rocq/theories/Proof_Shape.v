(** Shape functions: evaluation lemmas shared by all fixed-order elements. *)
From Coq Require Import List Reals Arith Lia Lra.
Import ListNotations.
Require Import Verif.Base Verif.RSum Verif.RDer Verif.Model_Shape Verif.Spec_Shape.
Local Open Scope nat_scope.

Definition unopt (c : option R) : R := match c with Some r => r | None => 0%R end.
Definition table (r : res (list (option R))) (v : nat) : R :=
  match r with Ok o => unopt (nth v o None) | Err _ => 0%R end.
(** value number v of the basis / partial / local basis of physical_position *)
Definition shapeN (E : elem) (v : nat) (x : vec) : R := table (e_basis E (pt (e_dim E) x) (repeat None (e_nv E))) v.
Definition shapeD (E : elem) (d v : nat) (x : vec) : R := table (e_partial E d (pt (e_dim E) x) (repeat None (e_nv E))) v.
Definition e_posb (E : elem) : list R -> list (option R) -> res (list (option R)) :=
  match E with
  | Quad4 => quad4_pos_basis | Quad8 => quad8_pos_basis | Quad12 => quad12_pos_basis
  | Hex8 => hex8_pos_basis | Hex20 => hex20_pos_basis | Hex32 => hex32_pos_basis | Tess16 => tess16_pos_basis
  end.

(** a run that writes exactly the first nv entries with values not depending on the old contents *)
Definition pure_run (nv : nat) (run : list (option R) -> res (list (option R))) : Prop :=
  forall out, nv <= length out -> exists out', run out = Ok out' /\ writes nv out out' (table (run (repeat None nv))).

Ltac rnorm t := let v := eval cbv -[Rplus Rmult Rminus Rdiv Ropp Rinv IZR] in t in v.
Lemma pure_run_intro nv run L : run (repeat None nv) = Ok L ->
  (forall out, nv <= length out -> exists out', run out = Ok out' /\ writes nv out out' (fun v => unopt (nth v L None))) -> pure_run nv run.
Proof.
  intros E H out Ho. destruct (H out Ho) as (o & E1 & W). exists o. split; [exact E1|]. unfold table. rewrite E. exact W.
Qed.
Tactic Notation "run_tac" integer(n) :=
  match goal with |- pure_run ?nv ?run => let v := rnorm (run (repeat None nv)) in
    match v with Ok ?L => apply (pure_run_intro nv run L); [vm_cast_no_check (@eq_refl (res (list (option R))) v)|] end end;
  let out := fresh "out" in let L := fresh "L" in intros out L;
  do n (destruct out as [|? out]; [exfalso; cbn in L; lia|]);
  match goal with |- exists o, ?r = Ok o /\ _ => let v := rnorm r in match v with Ok ?o => exists o; split; [vm_cast_no_check (@eq_refl (res (list (option R))) v)|] end end;
  split; [reflexivity|]; split;
  [let i := fresh "i" in let Hi := fresh "Hi" in intros i Hi; do n (destruct i as [|i]; [reflexivity|]); exfalso; lia
  |let i := fresh "i" in let Hi := fresh "Hi" in intros i Hi; do n (destruct i as [|i]; [exfalso; lia|]); reflexivity].
Lemma basis_pure E x : pure_run (e_nv E) (e_basis E (pt (e_dim E) x)).
Proof. destruct E; cbn [e_nv e_dim e_basis e_posb]; [run_tac 4|run_tac 8|run_tac 12|run_tac 8|run_tac 20|run_tac 32|run_tac 16]. Qed.
Lemma posb_pure E x : pure_run (e_nv E) (e_posb E (pt (e_dim E) x)).
Proof. destruct E; cbn [e_nv e_dim e_basis e_posb]; [run_tac 4|run_tac 8|run_tac 12|run_tac 8|run_tac 20|run_tac 32|run_tac 16]. Qed.
Lemma partial_pure E d x : d < e_dim E -> pure_run (e_nv E) (e_partial E d (pt (e_dim E) x)).
Proof.
  intros Hd. destruct E; cbn [e_dim] in Hd; cbn [e_nv e_dim].
  - do 2 (destruct d as [|d]; [cbn [e_partial]; run_tac 4|]). exfalso; lia.
  - do 2 (destruct d as [|d]; [cbn [e_partial]; run_tac 8|]). exfalso; lia.
  - do 2 (destruct d as [|d]; [cbn [e_partial]; run_tac 12|]). exfalso; lia.
  - do 3 (destruct d as [|d]; [cbn [e_partial]; run_tac 8|]). exfalso; lia.
  - do 3 (destruct d as [|d]; [cbn [e_partial]; run_tac 20|]). exfalso; lia.
  - do 3 (destruct d as [|d]; [cbn [e_partial]; run_tac 32|]). exfalso; lia.
  - do 4 (destruct d as [|d]; [cbn [e_partial]; run_tac 16|]). exfalso; lia.
Qed.
