(** Determinants of n x n real matrices by Laplace expansion along the first column, and the row
    operations used by the LU proofs (library; models nothing in /repo). *)
From Coq Require Import Reals Arith Lra Lia.
Require Import Verif.RSum Verif.Spec_Mat.
Open Scope R_scope.

Definition skip (i r : nat) : nat := if Nat.ltb r i then r else S r.
Definition minor0 (A : mat) (i : nat) : mat := fun r c => A (skip i r) (S c).
Fixpoint det (n : nat) (A : mat) : R :=
  match n with
  | O => 1
  | S m => rsum (S m) (fun i => (-1) ^ i * A i O * det m (minor0 A i))
  end.

Lemma skip0 r : skip 0 r = S r.
Proof. reflexivity. Qed.
Lemma skip_lt i r n : (r < n)%nat -> (skip i r < S n)%nat.
Proof. unfold skip. destruct (Nat.ltb_spec r i); lia. Qed.

Lemma det_ext n : forall A B, mat_eq n A B -> det n A = det n B.
Proof.
  induction n as [|n IH]; intros A B H; [reflexivity|]. cbn [det]. apply rsum_ext. intros i Hi.
  rewrite (H i O) by lia. f_equal. apply IH. intros r c Hr Hc. unfold minor0. apply H; [apply skip_lt; exact Hr|lia].
Qed.

(** replace row r *)
Definition rset (A : mat) (r : nat) (v : nat -> R) : mat := fun i j => if Nat.eqb i r then v j else A i j.

Definition unskip (i r : nat) : nat := if Nat.ltb r i then r else pred r.
Lemma minor_rset_eq A r v : forall i j, minor0 (rset A r v) r i j = minor0 A r i j.
Proof. intros i j. unfold minor0, rset, skip. destruct (Nat.ltb_spec i r), (Nat.eqb_spec i r), (Nat.eqb_spec (S i) r); try lia; reflexivity. Qed.
Lemma minor_rset_neq A r v i : i <> r -> forall x y, minor0 (rset A r v) i x y = rset (minor0 A i) (unskip i r) (fun j => v (S j)) x y.
Proof.
  intros H x y. unfold minor0, rset, skip, unskip.
  destruct (Nat.ltb_spec x i), (Nat.ltb_spec r i);
    repeat match goal with |- context [Nat.eqb ?a ?b] => destruct (Nat.eqb_spec a b) end; try lia; reflexivity.
Qed.
Lemma unskip_lt i r n : (i < S n)%nat -> (r < S n)%nat -> i <> r -> (unskip i r < n)%nat.
Proof. intros. unfold unskip. destruct (Nat.ltb_spec r i); lia. Qed.

Lemma det_lin n : forall A r u v a b, (r < n)%nat ->
  det n (rset A r (fun j => a * u j + b * v j)) = a * det n (rset A r u) + b * det n (rset A r v).
Proof.
  induction n as [|n IH]; intros A r u v a b Hr; [lia|]. cbn [det].
  rewrite <- !rsum_scal_l, <- rsum_plus. apply rsum_ext. intros i Hi.
  destruct (Nat.eq_dec i r) as [->|Ne].
  - rewrite !(det_ext n (minor0 (rset A r _) r) (minor0 A r)) by (intros x y _ _; apply minor_rset_eq).
    unfold rset. rewrite Nat.eqb_refl. ring.
  - rewrite !(det_ext n (minor0 (rset A r (fun j => a * u j + b * v j)) i) (rset (minor0 A i) (unskip i r) (fun j => a * u (S j) + b * v (S j)))) by (intros x y _ _; apply minor_rset_neq; exact Ne).
    rewrite (det_ext n (minor0 (rset A r u) i) (rset (minor0 A i) (unskip i r) (fun j => u (S j)))) by (intros x y _ _; apply minor_rset_neq; exact Ne).
    rewrite (det_ext n (minor0 (rset A r v) i) (rset (minor0 A i) (unskip i r) (fun j => v (S j)))) by (intros x y _ _; apply minor_rset_neq; exact Ne).
    rewrite (IH (minor0 A i) (unskip i r) (fun j => u (S j)) (fun j => v (S j)) a b) by (apply unskip_lt; assumption).
    unfold rset. destruct (Nat.eqb_spec i r); [contradiction|]. ring.
Qed.

(** two adjacent equal rows *)
Lemma det_adj0 n : forall A r, (S r < n)%nat -> (forall j, (j < n)%nat -> A r j = A (S r) j) -> det n A = 0.
Proof.
  induction n as [|n IH]; intros A r Hr H; [lia|]. cbn [det].
  rewrite (rsum_split _ r) by lia.
  rewrite (rsum_split _ (S r)) by lia.
  destruct (Nat.eqb_spec (S r) r) as [E|_]; [lia|].
  rewrite rsum_zero.
  - rewrite (det_ext n (minor0 A (S r)) (minor0 A r)).
    + rewrite (H O) by lia. simpl pow. ring.
    + intros x y Hx Hy. unfold minor0, skip.
      destruct (Nat.ltb_spec x (S r)), (Nat.ltb_spec x r); try lia; try reflexivity.
      replace x with r by lia. apply H. lia.
  - intros i Hi. destruct (Nat.eqb_spec i (S r)); [reflexivity|]. destruct (Nat.eqb_spec i r); [reflexivity|].
    rewrite (IH (minor0 A i) (unskip i r)); [ring| |].
    + unfold unskip. destruct (Nat.ltb_spec r i); lia.
    + intros j Hj. unfold minor0, skip, unskip. destruct (Nat.ltb_spec r i).
      * destruct (Nat.ltb_spec r i), (Nat.ltb_spec (S r) i); try lia. apply H. lia.
      * destruct (Nat.ltb_spec (pred r) i), (Nat.ltb_spec (S (pred r)) i); try lia.
        replace (S (pred r)) with r by lia. apply H. lia.
Qed.

Definition tr (p q i : nat) : nat := if Nat.eqb i p then q else if Nat.eqb i q then p else i.
Definition prow (A : mat) (f : nat -> nat) : mat := fun i j => A (f i) j.

Lemma det_swap_adj n A r : (S r < n)%nat -> det n (prow A (tr r (S r))) = - det n A.
Proof.
  intros Hr.
  set (M := fun u v => rset (rset A r u) (S r) v).
  set (u := A r). set (v := A (S r)).
  assert (L1 : forall x y w, det n (M (fun j => 1 * x j + 1 * y j) w) = det n (M x w) + det n (M y w)).
  { intros x y w.
    assert (C : forall t, mat_eq n (M t w) (rset (rset A (S r) w) r t)).
    { intros t i j Hi Hj. unfold M, rset. destruct (Nat.eqb_spec i (S r)), (Nat.eqb_spec i r); try lia; reflexivity. }
    rewrite (det_ext n _ _ (C _)), (det_ext n _ _ (C x)), (det_ext n _ _ (C y)). rewrite det_lin by lia. ring. }
  assert (L2 : forall x y w, det n (M w (fun j => 1 * x j + 1 * y j)) = det n (M w x) + det n (M w y)).
  { intros x y w. unfold M. rewrite det_lin by lia. ring. }
  assert (Z : forall w, det n (M w w) = 0).
  { intros w. apply (det_adj0 n _ r Hr). intros j Hj. unfold M, rset. rewrite Nat.eqb_refl.
    destruct (Nat.eqb_spec r (S r)); [lia|]. rewrite Nat.eqb_refl. reflexivity. }
  assert (E1 : det n A = det n (M u v)).
  { apply det_ext. intros i j Hi Hj. unfold M, rset, u, v. destruct (Nat.eqb_spec i (S r)) as [->|]; [reflexivity|]. destruct (Nat.eqb_spec i r) as [->|]; reflexivity. }
  assert (E2 : det n (prow A (tr r (S r))) = det n (M v u)).
  { apply det_ext. intros i j Hi Hj. unfold M, rset, u, v, prow, tr.
    destruct (Nat.eqb_spec i r) as [->|]; [destruct (Nat.eqb_spec r (S r)); [lia|reflexivity]|]. destruct (Nat.eqb_spec i (S r)) as [->|]; reflexivity. }
  assert (S := Z (fun j => 1 * u j + 1 * v j)). rewrite L1, !L2, !Z in S. rewrite E1, E2. lra.
Qed.

Lemma tr_invol p q i : tr p q (tr p q i) = i.
Proof. unfold tr. destruct (Nat.eqb_spec i p), (Nat.eqb_spec i q); repeat match goal with |- context [Nat.eqb ?a ?b] => destruct (Nat.eqb_spec a b) end; lia. Qed.
Lemma tr_sym p q i : tr p q i = tr q p i.
Proof. unfold tr. repeat match goal with |- context [Nat.eqb ?a ?b] => destruct (Nat.eqb_spec a b) end; lia. Qed.
Lemma tr_lt p q i n : (p < n)%nat -> (q < n)%nat -> (i < n)%nat -> (tr p q i < n)%nat.
Proof. unfold tr. repeat match goal with |- context [Nat.eqb ?a ?b] => destruct (Nat.eqb_spec a b) end; lia. Qed.

Lemma det_swap_lt n A p q : (p < q)%nat -> (q < n)%nat -> det n (prow A (tr p q)) = - det n A.
Proof.
  intros Hp Hq. remember (q - p - 1)%nat as d eqn:Ed. revert p q A Hp Hq Ed.
  induction d as [|d IH]; intros p q A Hp Hq Ed.
  - replace q with (S p) by lia. apply det_swap_adj. lia.
  - (* tr p q = adj(q-1,q) . tr p (q-1) . adj(q-1,q) *)
    destruct q as [|q]; [lia|].
    assert (E : mat_eq n (prow A (tr p (S q))) (prow (prow (prow A (tr q (S q))) (tr p q)) (tr q (S q)))).
    { intros i j Hi Hj. unfold prow. f_equal. unfold tr.
      destruct (Nat.eqb_spec i p), (Nat.eqb_spec i q), (Nat.eqb_spec i (S q));
      repeat match goal with |- context [Nat.eqb ?a ?b] => lazymatch a with context [if _ then _ else _] => fail | _ => destruct (Nat.eqb_spec a b) end end; lia. }
    rewrite (det_ext n _ _ E). rewrite det_swap_adj by lia. rewrite IH by lia. rewrite det_swap_adj by lia. ring.
Qed.

Lemma det_swap n A p q : p <> q -> (p < n)%nat -> (q < n)%nat -> det n (prow A (tr p q)) = - det n A.
Proof.
  intros Ne Hp Hq. destruct (Nat.lt_ge_cases p q) as [L|L]; [apply det_swap_lt; assumption|].
  rewrite <- (det_swap_lt n A q p) by lia. apply det_ext. intros i j _ _. unfold prow. rewrite tr_sym. reflexivity.
Qed.

Lemma det_rows_equal n A p q : p <> q -> (p < n)%nat -> (q < n)%nat -> (forall j, (j < n)%nat -> A p j = A q j) -> det n A = 0.
Proof.
  intros Ne Hp Hq H. assert (E : det n (prow A (tr p q)) = det n A).
  { apply det_ext. intros i j Hi Hj. unfold prow, tr. destruct (Nat.eqb_spec i p) as [->|]; [symmetry; apply H; exact Hj|].
    destruct (Nat.eqb_spec i q) as [->|]; [apply H; exact Hj|reflexivity]. }
  rewrite det_swap in E by assumption. lra.
Qed.

(** adding multiples of other rows to row r does not change the determinant *)
Lemma det_add_rows n A r v m (c : nat -> R) (w : nat -> nat) : (r < n)%nat ->
  (forall k, (k < m)%nat -> (w k < n)%nat /\ w k <> r) ->
  det n (rset A r (fun j => v j + rsum m (fun k => c k * A (w k) j))) = det n (rset A r v).
Proof.
  intros Hr. induction m as [|m IH]; intros Hw.
  - apply det_ext. intros i j _ _. unfold rset. destruct (Nat.eqb i r); [simpl; ring|reflexivity].
  - rewrite <- IH by (intros; apply Hw; lia). destruct (Hw m ltac:(lia)) as (W1 & W2).
    rewrite (det_ext n _ (rset A r (fun j => 1 * (v j + rsum m (fun k => c k * A (w k) j)) + c m * A (w m) j))).
    2: { intros i j _ _. unfold rset. destruct (Nat.eqb i r); [simpl; ring|reflexivity]. }
    rewrite det_lin by exact Hr. rewrite (det_rows_equal n (rset A r (A (w m))) (w m) r) ; [|exact W2|exact W1|exact Hr|].
    + ring_simplify. apply det_ext. intros i j _ _. reflexivity.
    + intros j Hj. unfold rset. rewrite Nat.eqb_refl. destruct (Nat.eqb_spec (w m) r); [contradiction|reflexivity].
Qed.

(** B = L U with L unit lower triangular: det B = det U *)
Lemma det_unit_lower n (B U : mat) (L : mat) :
  (forall i j, (i < n)%nat -> (j < n)%nat -> B i j = U i j + rsum i (fun k => L i k * U k j)) -> det n B = det n U.
Proof.
  intros H.
  (* rows below m replaced by the rows of U *)
  assert (G : forall m, (m <= n)%nat -> det n B = det n (fun i j => if Nat.ltb i m then U i j else B i j)).
  { induction m as [|m IH]; intros Hm.
    - apply det_ext. intros i j _ _. reflexivity.
    - rewrite IH by lia. set (A := fun i j => if Nat.ltb i m then U i j else B i j).
      rewrite <- (det_ext n (rset A m (U m)) (fun i j => if Nat.ltb i (S m) then U i j else B i j)).
      2: { intros i j Hi Hj. unfold rset, A. destruct (Nat.eqb_spec i m) as [->|]; [destruct (Nat.ltb_spec m (S m)); [reflexivity|lia]|].
           destruct (Nat.ltb_spec i m), (Nat.ltb_spec i (S m)); try lia; reflexivity. }
      rewrite <- (det_add_rows n A m (U m) m (L m) (fun k => k)) by (lia || (intros k Hk; lia)).
      apply det_ext. intros i j Hi Hj. unfold rset. destruct (Nat.eqb_spec i m) as [->|]; [|reflexivity].
      unfold A at 1. destruct (Nat.ltb_spec m m); [lia|]. rewrite H by assumption. f_equal. apply rsum_ext. intros k Hk.
      unfold A. destruct (Nat.ltb_spec k m); [reflexivity|lia]. }
  rewrite (G n) by lia. apply det_ext. intros i j Hi Hj. destruct (Nat.ltb_spec i n); [reflexivity|lia].
Qed.

Lemma det_first_col n A : (forall i, (0 < i <= n)%nat -> A i O = 0) -> det (S n) A = A O O * det n (minor0 A O).
Proof.
  intros H. cbn [det]. rewrite (rsum_single _ O).
  - simpl pow. ring.
  - lia.
  - intros i Hi Ne. rewrite H by lia. ring.
Qed.

Lemma rprod_S_l n f : rprod (S n) f = f O * rprod n (fun i => f (S i)).
Proof. induction n as [|n IH]; [simpl; ring|]. change (rprod (S (S n)) f) with (rprod (S n) f * f (S n)). rewrite IH. simpl. ring. Qed.

Lemma det_upper n : forall A, (forall i j, (j < i < n)%nat -> A i j = 0) -> det n A = rprod n (fun i => A i i).
Proof.
  induction n as [|n IH]; intros A H; [reflexivity|].
  rewrite det_first_col by (intros i Hi; apply H; lia).
  rewrite IH by (intros i j Hij; unfold minor0; rewrite skip0; apply H; lia).
  rewrite rprod_S_l. reflexivity.
Qed.

(** rank-deficient echelon shape *)
Lemma det_zero_block j : forall n A, (j < n)%nat ->
  (forall i c, (c < j)%nat -> (c < i < n)%nat -> A i c = 0) -> (forall i, (j <= i < n)%nat -> A i j = 0) -> det n A = 0.
Proof.
  induction j as [|j IH]; intros n A Hj H1 H2.
  - destruct n as [|n]; [lia|]. cbn [det]. apply rsum_zero. intros i Hi. rewrite H2 by lia. ring.
  - destruct n as [|n]; [lia|]. rewrite det_first_col by (intros i Hi; apply H1; lia).
    rewrite (IH n (minor0 A O)); [ring|lia| |].
    + intros i c Hc Hi. unfold minor0; rewrite skip0; apply H1; lia.
    + intros i Hi. unfold minor0; rewrite skip0; apply H2. lia.
Qed.

(** the small formulas agree with the general determinant *)
Lemma det2_det A : det 2 A = det2 A.
Proof. unfold det2. cbn. unfold minor0, skip. cbn. ring. Qed.
Lemma det3_det A : det 3 A = det3 A.
Proof. unfold det3. cbn. unfold minor0, skip. cbn. ring. Qed.
