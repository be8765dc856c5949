(** Vocabulary for the floating-point parts of the model.  [double] is modelled by exact reals;
    a division by zero (inf/NaN in IEEE arithmetic) is the error outcome [DivZero]. *)
From Coq Require Import Reals Arith Lia.
Require Import Verif.Base.
Open Scope R_scope.

(** checked division *)
Definition rdiv (a b : R) : res R := if Req_EM_T b 0 then Err DivZero else Ok (a / b).

(** functional array update: [w[j] = v] *)
Definition fset {A} (w : nat -> A) (j : nat) (v : A) : nat -> A :=
  fun i => if Nat.eqb i j then v else w i.

(** loop without failing operations: [for (i = 0; i < n; i++) s = body(i, s)] *)
Fixpoint fold_up {S} (n : nat) (body : nat -> S -> S) (s : S) : S :=
  match n with O => s | Datatypes.S m => body m (fold_up m body s) end.

Lemma rdiv_ok a b : b <> 0 -> rdiv a b = Ok (a / b).
Proof. intros H. unfold rdiv. destruct (Req_EM_T b 0); [contradiction|reflexivity]. Qed.
Lemma rdiv_zero a : rdiv a 0 = Err DivZero.
Proof. unfold rdiv. destruct (Req_EM_T 0 0); [reflexivity|contradiction]. Qed.
Lemma fset_eq {A} (w : nat -> A) j v : fset w j v j = v.
Proof. unfold fset. rewrite Nat.eqb_refl. reflexivity. Qed.
Lemma fset_neq {A} (w : nat -> A) i j v : i <> j -> fset w j v i = w i.
Proof. intros H. unfold fset. destruct (Nat.eqb_spec i j); [contradiction|reflexivity]. Qed.
