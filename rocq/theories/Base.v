(** Shared vocabulary of the model: outcomes, bounds-checked arrays, counted loops.
    Nothing here models a particular function of /repo.  Arrays stand for C arrays and for
    MATAR's CArray / ViewCArray / RaggedRightArray (row-major; the matar/ submodule is empty
    in /repo, so its semantics is part of the trusted base). *)
From Coq Require Import List Arith Lia.
Import ListNotations.

(** What can go wrong at run time; each is a distinct outcome, never a default value. *)
Inductive err : Type :=
| OOB        (** array index out of bounds (undefined behaviour) *)
| DivZero    (** division by zero: undefined for integers, inf/NaN for doubles *)
| BadShift   (** shift amount >= width (undefined behaviour) *)
| Uninit     (** read of memory that was allocated but never written *)
| Exited     (** the program called exit() *)
| Overflow   (** a value that an int cannot hold: signed arithmetic, or (int) of a double (undefined behaviour) *)
| Fuel.      (** model-only: loop bound exhausted (excluded by every theorem) *)

Inductive res (A : Type) : Type :=
| Ok (a : A)
| Err (e : err).
Arguments Ok {A} a.
Arguments Err {A} e.

Definition bind {A B : Type} (m : res A) (f : A -> res B) : res B :=
  match m with Ok a => f a | Err e => Err e end.

Declare Scope res_scope.
Delimit Scope res_scope with res.
Notation "'do' x <- m ; k" := (bind m (fun x => k))
  (at level 200, x pattern, m at level 100, k at level 200, right associativity) : res_scope.
Open Scope res_scope.

(** Checked array access. *)
Definition get {A} (l : list A) (i : nat) : res A :=
  match nth_error l i with Some a => Ok a | None => Err OOB end.

Fixpoint upd {A} (l : list A) (i : nat) (v : A) : list A :=
  match l, i with
  | [], _ => []
  | _ :: t, 0 => v :: t
  | h :: t, S i' => h :: upd t i' v
  end.

Definition set {A} (l : list A) (i : nat) (v : A) : res (list A) :=
  if i <? length l then Ok (upd l i v) else Err OOB.

(** Read of a possibly uninitialised cell. *)
Definition getu {A} (l : list (option A)) (i : nat) : res A :=
  match nth_error l i with
  | Some (Some a) => Ok a
  | Some None => Err Uninit
  | None => Err OOB
  end.

(** [for (i = lo; i < lo + n; i++) s = body(i, s)] *)
Fixpoint loop_from {S} (lo n : nat) (body : nat -> S -> res S) (s : S) : res S :=
  match n with
  | 0 => Ok s
  | Datatypes.S n' => do s' <- body lo s; loop_from (Datatypes.S lo) n' body s'
  end.

(** [for (i = 0; i < n; i++) s = body(i, s)] *)
Definition loop {S} (n : nat) (body : nat -> S -> res S) (s : S) : res S := loop_from 0 n body s.

(** [for x in l] over an explicit list (used when the iteration space is a list of items). *)
Fixpoint iter {A S} (l : list A) (body : A -> S -> res S) (s : S) : res S :=
  match l with
  | [] => Ok s
  | a :: t => do s' <- body a s; iter t body s'
  end.

(** ---- generic lemmas ---- *)

Lemma get_ok {A} (l : list A) i d : i < length l -> get l i = Ok (nth i l d).
Proof.
  intros H. unfold get. rewrite (nth_error_nth' l d H). reflexivity.
Qed.

Lemma get_inv {A} (l : list A) i a : get l i = Ok a -> i < length l /\ forall d, nth i l d = a.
Proof.
  unfold get. destruct (nth_error l i) as [x|] eqn:E; intros H; inversion H; subst.
  split.
  - apply nth_error_Some. congruence.
  - intros d. apply nth_error_nth. exact E.
Qed.

Lemma get_oob {A} (l : list A) i : length l <= i -> get l i = Err OOB.
Proof.
  intros H. unfold get. apply nth_error_None in H. rewrite H. reflexivity.
Qed.

Lemma upd_length {A} (l : list A) i v : length (upd l i v) = length l.
Proof.
  revert i. induction l as [|h t IH]; intros [|i]; simpl; auto.
Qed.

Lemma nth_upd_eq {A} (l : list A) i v d : i < length l -> nth i (upd l i v) d = v.
Proof.
  revert i. induction l as [|h t IH]; intros [|i] H; simpl in *; try lia; auto.
  apply IH. lia.
Qed.

Lemma nth_upd_neq {A} (l : list A) i j v d : i <> j -> nth j (upd l i v) d = nth j l d.
Proof.
  revert i j. induction l as [|h t IH]; intros [|i] [|j] H; simpl in *; try congruence; auto.
Qed.

Lemma nth_upd {A} (l : list A) i j v d :
  i < length l -> nth j (upd l i v) d = if j =? i then v else nth j l d.
Proof.
  intros H. destruct (Nat.eqb_spec j i) as [->|n].
  - apply nth_upd_eq; exact H.
  - apply nth_upd_neq. congruence.
Qed.

Lemma set_ok {A} (l : list A) i v : i < length l -> set l i v = Ok (upd l i v).
Proof.
  intros H. unfold set. destruct (Nat.ltb_spec i (length l)); [reflexivity|lia].
Qed.

Lemma set_oob {A} (l : list A) i v : length l <= i -> set l i v = Err OOB.
Proof.
  intros H. unfold set. destruct (Nat.ltb_spec i (length l)); [lia|reflexivity].
Qed.

Lemma bind_ok {A B} (m : res A) (f : A -> res B) b :
  bind m f = Ok b -> exists a, m = Ok a /\ f a = Ok b.
Proof.
  destruct m as [a|e]; simpl; intros H; [exists a; auto|discriminate].
Qed.

(** Total-correctness rule for counted loops: an invariant that every iteration re-establishes
    (and whose iterations all succeed) holds at the end, and the loop succeeds. *)
Lemma loop_from_inv {S} (P : nat -> S -> Prop) lo n body s0 :
  P lo s0 ->
  (forall i s, lo <= i < lo + n -> P i s -> exists s', body i s = Ok s' /\ P (Datatypes.S i) s') ->
  exists s', loop_from lo n body s0 = Ok s' /\ P (lo + n) s'.
Proof.
  revert lo s0. induction n as [|n IH]; intros lo s0 H0 Hstep; simpl.
  - exists s0. rewrite Nat.add_0_r. auto.
  - destruct (Hstep lo s0) as (s1 & E1 & P1); [lia|exact H0|].
    rewrite E1; simpl.
    destruct (IH (Datatypes.S lo) s1) as (s' & E' & P'); [exact P1| |].
    + intros i s Hi Hp. apply Hstep; [lia|exact Hp].
    + exists s'. split; [exact E'|]. replace (lo + Datatypes.S n) with (Datatypes.S lo + n) by lia. exact P'.
Qed.

Lemma loop_inv {S} (P : nat -> S -> Prop) n body s0 :
  P 0 s0 ->
  (forall i s, i < n -> P i s -> exists s', body i s = Ok s' /\ P (Datatypes.S i) s') ->
  exists s', loop n body s0 = Ok s' /\ P n s'.
Proof.
  intros H0 Hs. apply (loop_from_inv P 0 n body s0 H0). intros i s Hi. apply Hs. lia.
Qed.

Lemma iter_inv {A S} (P : list A -> S -> Prop) (l : list A) body s0 :
  P [] s0 ->
  (forall pre a post s, l = pre ++ a :: post -> P pre s ->
     exists s', body a s = Ok s' /\ P (pre ++ [a]) s') ->
  exists s', iter l body s0 = Ok s' /\ P l s'.
Proof.
  intros H0 Hs.
  assert (G : forall rest pre s, l = pre ++ rest -> P pre s ->
            exists s', iter rest body s = Ok s' /\ P l s').
  { induction rest as [|a t IH]; intros pre s E Hp; simpl.
    - exists s. rewrite app_nil_r in E. subst. auto.
    - destruct (Hs pre a t s E Hp) as (s1 & E1 & P1). rewrite E1; simpl.
      apply (IH (pre ++ [a]) s1); [rewrite <- app_assoc; exact E|exact P1]. }
  apply (G l [] s0 eq_refl H0).
Qed.

Lemma loop_from_ext {S} (lo n : nat) (f g : nat -> S -> res S) s :
  (forall i s', lo <= i < lo + n -> f i s' = g i s') -> loop_from lo n f s = loop_from lo n g s.
Proof.
  revert lo s. induction n as [|n IH]; intros lo s H; simpl; [reflexivity|].
  rewrite (H lo s) by lia. destruct (g lo s) as [s1|e]; simpl; [|reflexivity].
  apply IH. intros i s' Hi. apply H. lia.
Qed.

Lemma loop_ext {S} n (f g : nat -> S -> res S) s :
  (forall i s', i < n -> f i s' = g i s') -> loop n f s = loop n g s.
Proof. intros H. apply loop_from_ext. intros i s' Hi. apply H. lia. Qed.
