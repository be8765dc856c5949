From Coq Require Import List Reals NArith Arith Lia Lra.
Import ListNotations.
Require Import Verif.Base Verif.RBase Verif.RSum Verif.RDer Verif.Poly Verif.Jacobi_Math Verif.Spec_Lagrange
  Verif.Model_Common Verif.Spec_Common Verif.Proof_Common Verif.Model_Lagrange Verif.Model_Poly Verif.Spec_Poly Verif.Proof_Poly.
Open Scope R_scope.

(** ---- one-dimensional series ---- *)
Lemma leg_approx_ok N c c' X : (forall i, (i < N)%nat -> c i = Ok (c' i)) ->
  legendre_eval_approx N c X = Ok (rsum N (fun i => c' i * lP i X)).
Proof.
  intros Hc. unfold legendre_eval_approx.
  destruct (loop_inv (fun m s => s = rsum m (fun i => c' i * lP i X)) N
    (fun j s => do cj <- c j; do p <- legendre_eval j X; Ok (s + cj * p)) 0 eq_refl) as (r & E & Hr).
  - intros i s Hi ->. rewrite (Hc i Hi), legendre_eval_ok. cbn [bind]. eexists. split; reflexivity.
  - rewrite E, Hr. reflexivity.
Qed.

(** value returned by eval_der of order k >= 1 *)
Definition lDk (k n : nat) (X : R) : R :=
  if Nat.ltb n k then 0 else (1 / 2) ^ k * rising (INR n + (0 + 0) + 1) k * jP (0 + INR k) (0 + 0 + 2 * INR k) (n - k) X.
Lemma leg_der_ok G n k X : gamma_like G -> (1 <= k)%nat -> legendre_eval_der G n k X = Ok (lDk k n X).
Proof.
  intros HG Hk. unfold legendre_eval_der, lDk. destruct (Nat.ltb_spec n k).
  - unfold jacobi_eval_der. replace (Nat.ltb n k) with true by (symmetry; apply Nat.ltb_lt; lia). rewrite Bool.orb_true_r. reflexivity.
  - rewrite jacobi_eval_der_val by (try exact HG; try lra; lia). f_equal. f_equal. f_equal. f_equal. ring.
Qed.
Lemma lDk_der k n X : nth_der k (lP n) X (lDk k n X).
Proof.
  unfold lDk. destruct (Nat.ltb_spec n k); [apply nth_der_high; exact H|]. apply nth_der_jP. exact H.
Qed.
Lemma leg_der0 G n X : gamma_like G -> (1 <= n)%nat -> legendre_eval_der G n 0 X = Ok (lP n X).
Proof.
  intros HG Hn. destruct (jacobi_der_sym G n 0 0 X HG ltac:(lra) Hn) as (v & E & Hv). unfold legendre_eval_der. rewrite E. f_equal.
  symmetry. exact Hv.
Qed.

Lemma leg_der_approx_ok G N k c c' X : gamma_like G -> (1 <= k)%nat -> (forall i, (i < N)%nat -> c i = Ok (c' i)) ->
  legendre_eval_der_approx G N k c X = Ok (rsum N (fun i => c' i * lDk k i X)).
Proof.
  intros HG Hk Hc. unfold legendre_eval_der_approx.
  destruct (loop_inv (fun m s => s = rsum m (fun i => c' i * lDk k i X)) N
    (fun j s => do cj <- c j; do p <- legendre_eval_der G j k X; Ok (s + cj * p)) 0 eq_refl) as (r & E & Hr).
  - intros i s Hi ->. rewrite (Hc i Hi), leg_der_ok by assumption. cbn [bind]. eexists. split; reflexivity.
  - rewrite E, Hr. reflexivity.
Qed.
Lemma nth_der_add k : forall f g x d e, nth_der k f x d -> nth_der k g x e -> nth_der k (fun t => f t + g t) x (d + e).
Proof.
  induction k as [|k IH]; cbn; intros f g x d e H1 H2; [rewrite H1, H2; reflexivity|].
  destruct H1 as (f' & F1 & H1). destruct H2 as (g' & F2 & H2). exists (fun t => f' t + g' t). split.
  - intros t. apply der_add; auto.
  - apply IH; assumption.
Qed.
Lemma nth_der_sum k N (F : nat -> R -> R) (d : nat -> R) x : (forall i, (i < N)%nat -> nth_der k (F i) x (d i)) ->
  nth_der k (fun t => rsum N (fun i => F i t)) x (rsum N d).
Proof.
  induction N as [|N IH]; intros H; cbn [rsum]; [apply nth_der_zero; reflexivity|].
  apply nth_der_add; [apply IH; intros; apply H; lia|apply H; lia].
Qed.
Lemma series_der k N c X : nth_der k (fun t => rsum N (fun i => c i * lP i t)) X (rsum N (fun i => c i * lDk k i X)).
Proof. apply (nth_der_sum k N (fun i t => c i * lP i t)). intros i _. apply nth_der_scal. apply lDk_der. Qed.
Lemma lD1_der n x : derivable_pt_lim (lP n) x (lDk 1 n x).
Proof. destruct (lDk_der 1 n x) as (g & Hg & E). cbn in E. rewrite <- E. apply Hg. Qed.

(** ---- the element ---- *)
Lemma lg_ijk_ok n i j k : (N.of_nat (n * n * n) <= 2 ^ 64)%N -> (i < n)%nat -> (j < n)%nat -> (k < n)%nat ->
  lg_ijk n (N.of_nat (i + j * n + k * n * n)) = Ok (i, j, k).
Proof.
  intros Hs Hi Hj Hk. unfold lg_ijk.
  destruct (round_trip_digits [N.of_nat n; N.of_nat n; N.of_nat n] [N.of_nat i; N.of_nat j; N.of_nat k])
    as (v & _ & Ev & _ & Eb).
  - repeat constructor; lia.
  - cbn. lia.
  - replace (N.of_nat (i + j * n + k * n * n)) with v.
    + rewrite Eb. cbn [bind get nth_error]. rewrite !Nnat.Nat2N.id. reflexivity.
    + rewrite Ev. cbn. lia.
Qed.

Lemma lg_basis_ok order i j k x y z : let n := lg_size order in (N.of_nat (n * n * n) <= 2 ^ 64)%N ->
  (i < n)%nat -> (j < n)%nat -> (k < n)%nat ->
  lg_eval_basis order (N.of_nat (i + j * n + k * n * n)) x y z = Ok (lP i x * lP j y * lP k z).
Proof.
  intros n Hs Hi Hj Hk. unfold lg_eval_basis. fold n. rewrite lg_ijk_ok by assumption. cbn [bind].
  rewrite !legendre_eval_ok. reflexivity.
Qed.
Lemma lg_grad_basis_ok G order i j k x y z : gamma_like G -> let n := lg_size order in (N.of_nat (n * n * n) <= 2 ^ 64)%N ->
  (i < n)%nat -> (j < n)%nat -> (k < n)%nat ->
  lg_eval_grad_basis G order (N.of_nat (i + j * n + k * n * n)) x y z =
    Ok (lDk 1 i x * lP j y * lP k z, lP i x * lDk 1 j y * lP k z, lP i x * lP j y * lDk 1 k z).
Proof.
  intros HG n Hs Hi Hj Hk. unfold lg_eval_grad_basis. fold n. rewrite lg_ijk_ok by assumption. cbn [bind].
  rewrite !legendre_eval_ok, !leg_der_ok by (assumption || lia). reflexivity.
Qed.

Definition lop (d : bool) (i : nat) (x : R) : R := if d then lDk 1 i x else lP i x.
Lemma lg_collapse_ok G d N c c' X : gamma_like G -> (forall i, (i < N)%nat -> c i = Ok (c' i)) ->
  lg_collapse G d N c X = Ok (rsum N (fun i => c' i * lop d i X)).
Proof.
  intros HG Hc. unfold lg_collapse, lop. destruct d; [apply leg_der_approx_ok; try assumption; lia|apply leg_approx_ok; exact Hc].
Qed.

Lemma lg_grad_comp_ok G order l c c' x y z C : gamma_like G -> let n := lg_size order in
  (forall i, (i < n * n * n)%nat -> c i = Ok (c' i)) ->
  exists C', lg_grad_comp G order l c x y z C =
    Ok (tensor_sum n c' (fun i => lop (Nat.eqb l 0) i x) (fun j => lop (Nat.eqb l 1) j y) (fun k => lop (Nat.eqb l 2) k z), C').
Proof.
  intros HG n Hc. unfold lg_grad_comp. fold n.
  set (ax := fun k j => rsum n (fun i => c' (j * n + k * n * n + i)%nat * lop (Nat.eqb l 0) i x)).
  set (ay := fun k => rsum n (fun j => ax k j * lop (Nat.eqb l 1) j y)).
  edestruct (loop_inv (fun m (C : nat -> res R) => forall k, (k < m)%nat -> C (n + k)%nat = Ok (ay k)) n)
    as (C1 & E & H).
  3: { rewrite E. cbn [bind].
       rewrite (lg_collapse_ok G (Nat.eqb l 2) n (shift n C1) ay z HG).
       - cbn [bind]. eexists. f_equal. f_equal. unfold tensor_sum. apply rsum_ext. intros k Hk.
         unfold ay. rewrite <- rsum_scal_r. apply rsum_ext. intros j Hj.
         unfold ax. rewrite <- !rsum_scal_r. apply rsum_ext. intros i Hi.
         replace (i + j * n + k * n * n)%nat with (j * n + k * n * n + i)%nat by lia. ring.
       - intros k Hk. unfold shift. apply H. exact Hk. }
  - intros; lia.
  - intros k C0 Hk H0.
    edestruct (loop_inv (fun m (C : nat -> res R) => (forall j, (j < m)%nat -> C j = Ok (ax k j)) /\
         (forall i, (n <= i)%nat -> C i = C0 i)) n) as (C2 & E & H1 & H2).
    3: { rewrite E. cbn [bind].
         rewrite (lg_collapse_ok G (Nat.eqb l 1) n C2 (ax k) y HG H1). cbn [bind].
         eexists. split; [reflexivity|]. intros k' Hk'.
         destruct (Nat.eq_dec k' k) as [->|Ne].
         - rewrite fset_eq. reflexivity.
         - rewrite fset_neq by lia. rewrite H2 by lia. apply H0. lia. }
    + split; [intros; lia|auto].
    + intros j C2 Hj (H1 & H2).
      rewrite (lg_collapse_ok G (Nat.eqb l 0) n (shift (j * n + k * n * n) c) (fun i => c' (j * n + k * n * n + i)%nat) x HG).
      * cbn [bind]. eexists. split; [reflexivity|]. split.
        -- intros j' Hj'. destruct (Nat.eq_dec j' j) as [->|Ne]; [apply fset_eq|].
           rewrite fset_neq by exact Ne. apply H1. lia.
        -- intros i Hi. rewrite fset_neq by lia. apply H2. exact Hi.
      * intros i Hi. unfold shift. apply Hc. nia.
Qed.

Lemma lg_approx_comp G order c x y z C : lg_eval_approx order c x y z C = lg_grad_comp G order 3 c x y z C.
Proof. reflexivity. Qed.

(** ---- gradient of the tensor field ---- *)
Definition lfield (n : nat) (c : nat -> R) (x y z : R) : R :=
  tensor_sum n c (fun i => lP i x) (fun j => lP j y) (fun k => lP k z).
Lemma lfield_grad n c x y z : is_grad (lfield n c) x y z
  (tensor_sum n c (fun i => lDk 1 i x) (fun j => lP j y) (fun k => lP k z),
   tensor_sum n c (fun i => lP i x) (fun j => lDk 1 j y) (fun k => lP k z),
   tensor_sum n c (fun i => lP i x) (fun j => lP j y) (fun k => lDk 1 k z)).
Proof.
  unfold is_grad, lfield, tensor_sum. repeat split.
  - apply der_rsum; intros k _. apply der_rsum; intros j _. apply der_rsum; intros i _.
    apply der_scal. apply der_scal_r. apply der_scal_r. apply lD1_der.
  - apply der_rsum; intros k _. apply der_rsum; intros j _. apply der_rsum; intros i _.
    apply der_scal. apply der_scal_r. apply der_scal. apply lD1_der.
  - apply der_rsum; intros k _. apply der_rsum; intros j _. apply der_rsum; intros i _.
    apply der_scal. apply der_scal. apply lD1_der.
Qed.
