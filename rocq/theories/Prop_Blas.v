(** C39: the BLAS/LAPACK wrappers of common/matar_blas_lapack_interface.cpp. *)
From Coq Require Import Reals ZArith List Arith Bool Lia Lra.
Import ListNotations.
Require Import Verif.Base Verif.RSum Verif.Spec_Mat Verif.Det Verif.LinAlg Verif.Spec_Gauss Verif.Model_Blas Verif.Spec_Blas Verif.Proof_Box Verif.Proof_Blas.
Local Open Scope nat_scope.

(** concrete arrays for the examples *)
Definition mk2 (m n : nat) (M : mat) : carr := {| dims := [m; n]; cells := map (fun q => Some (M (q / n) (q mod n))) (seq 0 (m * n)) |}.
Definition mk1 (n : nat) (v : nat -> R) : carr := {| dims := [n]; cells := map (fun q => Some (v q)) (seq 0 n) |}.
Definition empty2 (m n : nat) : carr := {| dims := [m; n]; cells := repeat None (m * n) |}.
Definition empty1 (n : nat) : carr := {| dims := [n]; cells := repeat None n |}.
Lemma nth_map_seq {X} (f : nat -> X) k q : q < k -> nth_error (map f (seq 0 k)) q = Some (f q).
Proof. intros H. rewrite nth_error_map. rewrite (nth_error_nth' (seq 0 k) 0) by (rewrite seq_length; exact H). rewrite seq_nth by exact H. reflexivity. Qed.
Lemma mk2_mat m n M : 0 < n -> is_mat (mk2 m n M) m n M.
Proof.
  intros Hn. split; [split; [reflexivity|cbn; rewrite map_length, seq_length; reflexivity]|]. intros i j Hi Hj. unfold entry. cbn [cells mk2].
  rewrite nth_map_seq by nia. rewrite Nat.div_add_l by lia. rewrite (Nat.div_small j n Hj), Nat.add_0_r, Nat.add_comm, Nat.mod_add, Nat.mod_small by lia. reflexivity.
Qed.
Lemma mk1_vec n v : is_vec (mk1 n v) n v.
Proof. split; [split; [reflexivity|cbn; rewrite map_length, seq_length; reflexivity]|]. intros i Hi. cbn [cells mk1]. apply (nth_map_seq (fun q => Some (v q))). exact Hi. Qed.
Lemma empty2_array m n : array2 (empty2 m n) m n.
Proof. split; [reflexivity|apply repeat_length]. Qed.
Lemma empty1_array n : array1 (empty1 n) n.
Proof. split; [reflexivity|apply repeat_length]. Qed.

Lemma nth_ext_error {X} (a : list X) : forall b, (forall q, nth_error a q = nth_error b q) -> a = b.
Proof.
  induction a as [|x a IH]; intros [|y b] H; [reflexivity|specialize (H 0); discriminate|specialize (H 0); discriminate|]. f_equal; [specialize (H 0); cbn in H; congruence|]. apply IH. intros q. exact (H (S q)).
Qed.

(** ** transpose *)
(** every entry moves to its mirror place, for every shape *)
Theorem C39_transpose : forall A B m n M, is_mat A m n M -> array2 B n m ->
  exists B', transpose A B = Ok B' /\ is_mat B' n m (fun i j => M j i).
Proof. intros A B m n M HA HB. apply (transpose_ok A B m n M HA HB). Qed.
Print Assumptions C39_transpose.

(** transposing twice, whatever the two output arrays held before, gives the original array *)
Theorem C39_transpose_twice : forall A B C m n M, is_mat A m n M -> array2 B n m -> array2 C m n ->
  exists B' C', transpose A B = Ok B' /\ transpose B' C = Ok C' /\ C' = A.
Proof.
  intros A B C m n M HA HB HC. destruct (transpose_ok A B m n M HA HB) as (B' & E & HB'). destruct (transpose_ok B' C n m _ HB' HC) as (C' & E' & HC').
  exists B', C'. split; [exact E|]. split; [exact E'|].
  destruct HA as ((DA & LA) & HA). destruct HC' as ((DC & LC) & HC').
  assert (Q : cells C' = cells A).
  { apply nth_ext_error. intros q. destruct (Nat.lt_ge_cases q (m * n)) as [H|H].
    - assert (Hn : n <> 0) by (intros ->; lia). rewrite (Nat.div_mod q n Hn), (Nat.mul_comm n (q / n)).
      assert (q / n < m) by (apply Nat.div_lt_upper_bound; [exact Hn|lia]). assert (q mod n < n) by (apply Nat.mod_upper_bound; exact Hn).
      rewrite (HC' (q / n) (q mod n)), (HA (q / n) (q mod n)) by assumption. reflexivity.
    - rewrite (proj2 (nth_error_None _ _)) by lia. rewrite (proj2 (nth_error_None _ _)) by lia. reflexivity. }
  destruct A as [dA cA], C' as [dC cC]. cbn in *. subst. reflexivity.
Qed.
Print Assumptions C39_transpose_twice.

(** arrays of other shapes are rejected *)
Theorem C39_transpose_rejects : forall A B, (forall m n, ~ (dims A = [m; n] /\ dims B = [n; m])) -> transpose A B = Err Exited.
Proof.
  intros A B H. unfold transpose. destruct (dims A) as [|ma [|na [|]]]; try reflexivity. destruct (dims B) as [|mb [|nb [|]]]; try reflexivity.
  destruct (Nat.eqb_spec ma nb) as [->|]; [|reflexivity]. destruct (Nat.eqb_spec na mb) as [->|]; [|reflexivity]. exfalso. apply (H nb mb). auto.
Qed.
Print Assumptions C39_transpose_rejects.

Example C39_transpose_nonvacuous : exists A B, is_mat A 2 3 (fun i j => INR (10 * i + j)) /\ array2 B 3 2 /\
  exists B', transpose A B = Ok B' /\ is_mat B' 3 2 (fun i j => INR (10 * j + i)).
Proof.
  exists (mk2 2 3 (fun i j => INR (10 * i + j))), (empty2 3 2). pose proof (mk2_mat 2 3 (fun i j => INR (10 * i + j)) ltac:(lia)) as H. pose proof (empty2_array 3 2) as H'.
  split; [exact H|]. split; [exact H'|]. apply (C39_transpose _ _ _ _ _ H H').
Qed.

(** ** matrix times vector *)
(** square matrices and single columns: the product, whatever y held before *)
Theorem C39_matvec : forall A x y m n M v, 0 < m -> 0 < n -> is_mat A m n M -> is_vec x n v -> array1 y m ->
  m = n \/ n = 1 ->
  exists y', matvec A x y = Ok y' /\ is_vec y' m (fun i => rsum n (fun j => M i j * v j)%R).
Proof. exact matvec_ok. Qed.
Print Assumptions C39_matvec.

(** all other shapes: fewer rows than columns overrun the packed copy, more rows (and two columns at least)
    multiply with memory that was never written.  The three theorems cover every shape without a zero. *)
Theorem C39_matvec_wide : forall A x y m n M, 0 < m -> m < n -> is_mat A m n M -> array1 x n -> array1 y m ->
  matvec A x y = Err OOB.
Proof. exact matvec_wide. Qed.
Print Assumptions C39_matvec_wide.
Theorem C39_matvec_tall : forall A x y m n M, 2 <= n -> n < m -> is_mat A m n M -> array1 x n -> array1 y m ->
  matvec A x y = Err Uninit.
Proof. exact matvec_tall. Qed.
Print Assumptions C39_matvec_tall.
Theorem C39_matvec_rejects : forall A x y, (forall m n, ~ (dims A = [m; n] /\ dims x = [n] /\ dims y = [m])) -> matvec A x y = Err Exited.
Proof.
  intros A x y H. unfold matvec. destruct (dims A) as [|ma [|na [|]]]; try reflexivity. destruct (dims x) as [|nx [|]]; try reflexivity. destruct (dims y) as [|my [|]]; try reflexivity.
  destruct (Nat.eqb_spec my ma) as [->|]; [|reflexivity]. destruct (Nat.eqb_spec na nx) as [->|]; [|reflexivity]. exfalso. apply (H ma nx). auto.
Qed.
Print Assumptions C39_matvec_rejects.

Example C39_matvec_nonvacuous : exists A x y y', is_mat A 2 2 (fun i j => INR (2 * i + j)) /\ is_vec x 2 INR /\ array1 y 2 /\
  matvec A x y = Ok y' /\ nth_error (cells y') 1 = Some (Some 3%R).
Proof.
  pose proof (mk2_mat 2 2 (fun i j => INR (2 * i + j)) ltac:(lia)) as HA. pose proof (mk1_vec 2 INR) as Hx. pose proof (empty1_array 2) as Hy.
  destruct (C39_matvec _ _ _ 2 2 _ _ ltac:(lia) ltac:(lia) HA Hx Hy) as (y' & E & _ & H); [left; reflexivity|].
  eexists _, _, _, y'. split; [exact HA|]. split; [exact Hx|]. split; [exact Hy|]. split; [exact E|]. rewrite H by lia. do 2 f_equal. cbn. lra.
Qed.
Example C39_matvec_wide_nonvacuous : matvec (mk2 2 3 (fun _ _ => 1%R)) (mk1 3 INR) (empty1 2) = Err OOB.
Proof. apply (C39_matvec_wide _ _ _ 2 3 (fun _ _ => 1%R)); try lia; [apply mk2_mat; lia|apply mk1_vec|apply empty1_array]. Qed.
Example C39_matvec_tall_nonvacuous : matvec (mk2 3 2 (fun _ _ => 1%R)) (mk1 2 INR) (empty1 3) = Err Uninit.
Proof. apply (C39_matvec_tall _ _ _ 3 2 (fun _ _ => 1%R)); try lia; [apply mk2_mat; lia|apply mk1_vec|apply empty1_array]. Qed.

(** ** matrix times matrix *)
(** if each operand is square or a single column the product is right; C may be larger than the product, its
    other entries are kept *)
Theorem C39_matmul : forall A B C m n p r s P Q, 0 < m -> 0 < n -> 0 < p ->
  is_mat A m n P -> is_mat B n p Q -> array2 C r s -> m <= r -> p <= s ->
  m = n \/ n = 1 -> n = p \/ p = 1 ->
  exists C', matmul A B C = Ok C' /\ array2 C' r s /\ (forall i j, i < m -> j < p -> entry C' s i j (mmul n P Q i j)) /\
    (forall i j, i < r -> j < s -> m <= i \/ p <= j -> nth_error (cells C') (i * s + j) = nth_error (cells C) (i * s + j)).
Proof. exact matmul_ok. Qed.
Print Assumptions C39_matmul.

(** otherwise: an operand with fewer rows than columns overruns its packed copy, *)
Theorem C39_matmul_wide : forall A B C m n p r s P Q, 0 < m -> 0 < n -> 0 < p ->
  is_mat A m n P -> is_mat B n p Q -> array2 C r s -> m < n \/ n < p -> matmul A B C = Err OOB.
Proof.
  intros A B C m n p r s P Q Hm Hn Hp HA HB HC H. destruct (Nat.lt_ge_cases m n) as [W|W].
  - apply (matmul_wide_a A B C m n p r s P); try assumption. exact (proj1 HB).
  - apply (matmul_wide_b A B C m n p r s P Q); try assumption; lia.
Qed.
Print Assumptions C39_matmul_wide.
(** and without such an operand one with more rows than columns (two columns at least) multiplies with memory
    that was never written.  The three theorems cover every pair of shapes without a zero. *)
Theorem C39_matmul_tall : forall A B C m n p r s P Q, 0 < m -> 0 < n -> 0 < p ->
  is_mat A m n P -> is_mat B n p Q -> array2 C r s -> n <= m -> p <= n ->
  (2 <= n /\ n < m) \/ (2 <= p /\ p < n) -> matmul A B C = Err Uninit.
Proof. intros A B C m n p r s P Q Hm Hn Hp HA HB HC H1 H2 H. apply (matmul_tall A B C m n p r s P Q); auto. Qed.
Print Assumptions C39_matmul_tall.
(** every shape falls under one of the three *)
Theorem C39_matmul_shapes : forall m n p, 0 < m -> 0 < n -> 0 < p ->
  ((m = n \/ n = 1) /\ (n = p \/ p = 1)) \/ (m < n \/ n < p) \/ (n <= m /\ p <= n /\ ((2 <= n /\ n < m) \/ (2 <= p /\ p < n))).
Proof. intros. lia. Qed.
(** an output array that is too small is written past its rows or columns: the code does not compare sizes *)
Theorem C39_matmul_small_output : forall A B C m n p r s P Q, 0 < m -> 0 < n -> 0 < p ->
  is_mat A m n P -> is_mat B n p Q -> array2 C r s -> m = n \/ n = 1 -> n = p \/ p = 1 -> r < m \/ s < p ->
  matmul A B C = Err OOB.
Proof.
  intros A B C m n p r s P Q Hm Hn Hp HA HB HC P1 P2 Small. pose proof HA as ((DA & LA) & _). pose proof HB as ((DB & LB) & _). pose proof HC as (DC & LC).
  unfold matmul. rewrite DA, DB, DC, !Nat.eqb_refl.
  destruct (pack_ok A m n P HA P1) as (a & -> & La & Ha). cbn [bind]. destruct (pack_ok B n p Q HB P2) as (b & -> & Lb & Hb). cbn [bind].
  destruct (dgemm_ok m p n a b (repeat None (m * p)) P Q) as (c & -> & Lc & Hc); try assumption; [apply repeat_length|]. cbn [bind].
  assert (Hc' : forall i j, i < m -> j < p -> getu c (i + p * j) = Ok (mmul n P Q i j)).
  { intros i j Hi Hj. apply getu_some. rewrite <- (Hc i j) by assumption. f_equal. nia. }
  assert (Step : forall i j C1, i < m -> j < p -> array2 C1 r s ->
     (exists C2, (do v <- getu c (i + p * j); set2 C1 i j v) = Ok C2 /\ array2 C2 r s) \/ (do v <- getu c (i + p * j); set2 C1 i j v) = Err OOB).
  { intros i j C1 Hi Hj H1. rewrite Hc' by assumption. cbn [bind]. destruct (Nat.lt_ge_cases i r) as [Hr|Hr].
    - destruct (Nat.lt_ge_cases j s) as [Hs|Hs]; [left; destruct (set2_ok C1 r s i j (mmul n P Q i j)) as (C2 & E & G & _); eauto|].
      right. unfold set2. rewrite (proj1 H1). destruct (Nat.ltb_spec j s); [lia|]. rewrite andb_false_r. reflexivity.
    - right. unfold set2. rewrite (proj1 H1). destruct (Nat.ltb_spec i r); [lia|]. reflexivity. }
  apply (loop_err (fun _ C1 => array2 C1 r s) OOB (p - 1)); [exact HC| |lia|].
  - intros j C1 Hj H1. apply (loop_or (fun _ C1 => array2 C1 r s) OOB m); [exact H1|]. intros i C2 Hi H2. apply Step; assumption.
  - intros C1 H1. apply (loop_err (fun _ C1 => array2 C1 r s) OOB (m - 1)); [exact H1| |lia|].
    + intros i C2 Hi H2. apply Step; (assumption || lia).
    + intros C2 H2. rewrite Hc' by lia. cbn [bind]. unfold set2. rewrite (proj1 H2). destruct (Nat.ltb_spec (m - 1) r); [|reflexivity]. destruct (Nat.ltb_spec (p - 1) s); [lia|]. reflexivity.
Qed.
Print Assumptions C39_matmul_small_output.
Theorem C39_matmul_rejects : forall A B C, (forall m n p r s, ~ (dims A = [m; n] /\ dims B = [n; p] /\ dims C = [r; s])) -> matmul A B C = Err Exited.
Proof.
  intros A B C H. unfold matmul. destruct (dims A) as [|ma [|na [|]]]; try reflexivity. destruct (dims B) as [|mb [|nb [|]]]; try reflexivity. destruct (dims C) as [|mc [|nc [|]]]; try reflexivity.
  destruct (Nat.eqb_spec na mb) as [->|]; [|reflexivity]. exfalso. apply (H ma mb nb mc nc). auto.
Qed.
Print Assumptions C39_matmul_rejects.

Example C39_matmul_nonvacuous : exists A B C C', is_mat A 2 2 (fun i j => INR (2 * i + j)) /\ is_mat B 2 2 (fun i j => INR (i + j)) /\ array2 C 3 2 /\
  matmul A B C = Ok C' /\ entry C' 2 1 1 8.
Proof.
  pose proof (mk2_mat 2 2 (fun i j => INR (2 * i + j)) ltac:(lia)) as HA. pose proof (mk2_mat 2 2 (fun i j => INR (i + j)) ltac:(lia)) as HB. pose proof (empty2_array 3 2) as HC.
  destruct (C39_matmul _ _ _ 2 2 2 3 2 _ _ ltac:(lia) ltac:(lia) ltac:(lia) HA HB HC) as (C' & E & _ & H & _); try lia.
  eexists _, _, _, C'. split; [exact HA|]. split; [exact HB|]. split; [exact HC|]. split; [exact E|].
  replace 8%R with (mmul 2 (fun i j => INR (2 * i + j)) (fun i j => INR (i + j)) 1 1); [apply H; lia|]. unfold mmul. cbn. lra.
Qed.
Example C39_matmul_wide_nonvacuous : matmul (mk2 2 2 (fun _ _ => 1%R)) (mk2 2 3 (fun _ _ => 1%R)) (empty2 2 3) = Err OOB.
Proof. apply (C39_matmul_wide _ _ _ 2 2 3 2 3 (fun _ _ => 1%R) (fun _ _ => 1%R)); try lia; [apply mk2_mat; lia|apply mk2_mat; lia|apply empty2_array]. Qed.
Example C39_matmul_tall_nonvacuous : matmul (mk2 3 2 (fun _ _ => 1%R)) (mk2 2 2 (fun _ _ => 1%R)) (empty2 3 2) = Err Uninit.
Proof. apply (C39_matmul_tall _ _ _ 3 2 2 3 2 (fun _ _ => 1%R) (fun _ _ => 1%R)); try lia; [apply mk2_mat; lia|apply mk2_mat; lia|apply empty2_array]. Qed.

(** ** inversion *)
(** any LAPACK that keeps its promise: a matrix that is not singular is inverted, two-sidedly, and nothing is printed *)
Theorem C39_invert : forall getrf getrs A B n M, lapack_solves getrf getrs -> is_mat A n n M -> array2 B n n -> det n M <> 0%R ->
  exists B' X, invert getrf getrs A B = Ok (B', 0) /\ is_mat B' n n X /\ is_inverse n M X.
Proof. exact invert_ok. Qed.
Print Assumptions C39_invert.
(** a singular matrix: a message is printed, and the call still returns with some contents in B *)
Theorem C39_invert_singular : forall getrf getrs A B n M, lapack_solves getrf getrs -> is_mat A n n M -> array2 B n n -> det n M = 0%R ->
  exists B' X said, invert getrf getrs A B = Ok (B', said) /\ 1 <= said /\ is_mat B' n n X.
Proof. exact invert_singular. Qed.
Print Assumptions C39_invert_singular.
(** whatever the two LAPACK calls return: B receives the array left by the second one, read column by column, and
    one message is printed for each call with a non-zero code - there is no other sign of failure *)
Theorem C39_invert_messages : forall (getrf : getrf_fun) (getrs : getrs_fun) A B n M lu ipiv code1 code2 b' X,
  is_mat A n n M -> array2 B n n ->
  (forall a, col_major n a M -> getrf n a = (lu, ipiv, code1)) ->
  (forall b, col_major n b ident -> getrs n lu ipiv b = (b', code2)) -> col_major n b' X ->
  exists B', invert getrf getrs A B = Ok (B', (if (code1 =? 0)%Z then 0 else 1) + (if (code2 =? 0)%Z then 0 else 1)) /\ is_mat B' n n X.
Proof.
  intros getrf getrs A B n M lu ipiv code1 code2 b' X HA HB S1 S2 (Lb' & Hb'). pose proof HA as ((DA & LA) & _). pose proof HB as (DB & LB). unfold invert. rewrite DA, DB, !Nat.eqb_refl. cbn [andb].
  destruct (pack_ok A n n M HA) as (a & -> & La & Ha); [left; reflexivity|]. cbn [bind]. rewrite (S1 a (conj La Ha)).
  destruct (identity_loop n) as (b & -> & Hb). cbn [bind]. rewrite (S2 b Hb).
  destruct (copy_out B n n n n n b' X HB) as (B' & -> & HB' & E' & _); [lia|lia|exact Hb'|]. cbn [bind]. exists B'. split; [reflexivity|]. split; [exact HB'|exact E'].
Qed.
Print Assumptions C39_invert_messages.
Theorem C39_invert_rejects : forall getrf getrs A B, (forall n, ~ (dims A = [n; n] /\ dims B = [n; n])) -> invert getrf getrs A B = Err Exited.
Proof.
  intros getrf getrs A B H. unfold invert. destruct (dims A) as [|ma [|na [|]]]; try reflexivity. destruct (dims B) as [|mb [|nb [|]]]; try reflexivity.
  destruct (Nat.eqb_spec ma mb) as [->|]; [|reflexivity]. destruct (Nat.eqb_spec na nb) as [->|]; [|reflexivity]. cbn [andb]. destruct (Nat.eqb_spec mb nb) as [->|]; [|reflexivity]. exfalso. apply (H nb). auto.
Qed.
Print Assumptions C39_invert_rejects.

(** the promise can be kept: an implementation that computes with exact numbers *)
Definition mat_of (n : nat) (a : list (option R)) : mat := fun i j => match nth_error a (i + n * j) with Some (Some v) => v | _ => 0%R end.
Definition cols_of (n : nat) (X : mat) : list (option R) := map (fun q => Some (X (q mod n) (q / n))) (seq 0 (n * n)).
Lemma cols_of_ok n X : col_major n (cols_of n X) X.
Proof.
  split; [unfold cols_of; rewrite map_length, seq_length; reflexivity|]. intros i j Hi Hj. unfold cols_of. rewrite nth_map_seq by nia.
  rewrite (Nat.mul_comm n j), Nat.mod_add, Nat.mod_small, Nat.div_add, (Nat.div_small i n) by lia. reflexivity.
Qed.
Lemma mat_of_ok n a M : col_major n a M -> mat_eq n (mat_of n a) M.
Proof. intros (L & H) i j Hi Hj. unfold mat_of. rewrite H by assumption. reflexivity. Qed.
(** Cramer's rule *)
Definition cramer (n : nat) (A : mat) : mat := fun j r => (det n (rset A r (ident j)) / det n A)%R.
Lemma det_sum_row n A r m (c : nat -> R) (w : nat -> nat -> R) : r < n ->
  det n (rset A r (fun j => rsum m (fun k => c k * w k j)%R)) = rsum m (fun k => c k * det n (rset A r (w k)))%R.
Proof.
  intros Hr. induction m as [|m IH]; cbn [rsum].
  - rewrite (det_ext n _ (rset A r (fun j => 0 * 0 + 0 * 0)%R)) by (intros i j _ _; unfold rset; destruct (Nat.eqb i r); [ring|reflexivity]). rewrite (det_lin n A r (fun _ => 0%R) (fun _ => 0%R) 0 0) by exact Hr. ring.
  - rewrite (det_ext n _ (rset A r (fun j => 1 * rsum m (fun k => c k * w k j) + c m * w m j)%R)) by (intros i j _ _; unfold rset; destruct (Nat.eqb i r); [ring|reflexivity]).
    rewrite det_lin, IH by exact Hr. ring.
Qed.
Lemma cramer_ok n A : det n A <> 0%R -> mat_eq n (mmul n A (cramer n A)) ident.
Proof.
  intros D s r Hs Hr. unfold mmul, cramer. rewrite (rsum_ext n _ (fun k => A s k * det n (rset A r (ident k)) * / det n A)%R) by (intros; unfold Rdiv; ring).
  rewrite rsum_scal_r, <- (det_sum_row n A r n (fun k => A s k) ident) by exact Hr.
  rewrite (det_ext n _ (rset A r (A s))).
  2: { intros i j Hi Hj. unfold rset. destruct (Nat.eqb i r); [|reflexivity]. rewrite (rsum_single n j); [|exact Hj|].
       - unfold ident. rewrite Nat.eqb_refl. ring.
       - intros k Hk Ne. unfold ident. destruct (Nat.eqb_spec k j); [contradiction|ring]. }
  unfold ident. destruct (Nat.eqb_spec s r) as [->|Ne].
  - rewrite (det_ext n _ A); [field; exact D|]. intros i j _ _. unfold rset. destruct (Nat.eqb_spec i r) as [->|]; reflexivity.
  - rewrite (det_rows_equal n (rset A r (A s)) s r Ne Hs Hr); [ring|]. intros j Hj. unfold rset. rewrite Nat.eqb_refl. destruct (Nat.eqb_spec s r); [contradiction|reflexivity].
Qed.
Definition exact_getrf : getrf_fun := fun n a => (a, [], if Req_EM_T (det n (mat_of n a)) 0 then 1%Z else 0%Z).
Definition exact_getrs : getrs_fun := fun n a _ b => (cols_of n (mmul n (cramer n (mat_of n a)) (mat_of n b)), 0%Z).
Theorem C39_lapack_promise_satisfiable : lapack_solves exact_getrf exact_getrs.
Proof.
  split; [|split].
  - intros n a M HM D. pose proof (mat_of_ok n a M HM) as E. assert (D' : det n (mat_of n a) <> 0%R) by (rewrite (det_ext n _ _ E); exact D).
    exists a, []. unfold exact_getrf. destruct (Req_EM_T (det n (mat_of n a)) 0); [contradiction|]. split; [reflexivity|]. intros b Y HY.
    eexists _, _. split; [reflexivity|]. split; [apply cols_of_ok|]. intros i j Hi Hj. pose proof (mat_of_ok n b Y HY) as EY.
    unfold mmul. rewrite (rsum_ext n _ (fun k => rsum n (fun q => M i k * (cramer n (mat_of n a) k q * mat_of n b q j))%R)) by (intros; rewrite rsum_scal_l; reflexivity).
    rewrite rsum_swap. rewrite (rsum_ext n _ (fun q => ident i q * Y q j)%R).
    + rewrite (rsum_single n i); [unfold ident; rewrite Nat.eqb_refl; ring|exact Hi|]. intros k Hk Ne. unfold ident. destruct (Nat.eqb_spec i k); [congruence|ring].
    + intros q Hq. rewrite <- (cramer_ok n _ D' i q Hi Hq). unfold mmul. rewrite <- rsum_scal_r. apply rsum_ext. intros k Hk. rewrite (EY q j Hq Hj), (E i k Hi Hk). ring.
  - intros n a M HM D. eexists _, _, _. split; [reflexivity|]. destruct (Req_EM_T (det n (mat_of n a)) 0) as [|N]; [lia|]. exfalso. apply N. rewrite (det_ext n _ M (mat_of_ok n a M HM)). exact D.
  - intros n lu ipiv b Y _. eexists _, _, _. split; [reflexivity|]. apply cols_of_ok.
Qed.
Print Assumptions C39_lapack_promise_satisfiable.
Example C39_invert_nonvacuous : exists B' X, invert exact_getrf exact_getrs (mk2 2 2 (fun i j => INR (1 + i + j * j))) (empty2 2 2) = Ok (B', 0) /\ is_mat B' 2 2 X /\
  is_inverse 2 (fun i j => INR (1 + i + j * j)) X.
Proof.
  apply C39_invert; [apply C39_lapack_promise_satisfiable|apply mk2_mat; lia|apply empty2_array|]. rewrite det2_det. unfold det2. cbn. lra.
Qed.
Example C39_invert_messages_nonvacuous : exists B',
  invert (fun n a => (a, [], 3%Z)) (fun n lu ipiv b => (cols_of n ident, (-1)%Z)) (mk2 2 2 (fun _ _ => 1%R)) (empty2 2 2) = Ok (B', 2) /\ is_mat B' 2 2 ident.
Proof.
  assert (H := mk2_mat 2 2 (fun _ _ => 1%R) ltac:(lia)).
  destruct (C39_invert_messages (fun n a => (cols_of 2 (fun _ _ => 1%R), [], 3%Z)) (fun n lu ipiv b => (cols_of n ident, (-1)%Z)) _ (empty2 2 2) 2 _ (cols_of 2 (fun _ _ => 1%R)) [] 3%Z (-1)%Z (cols_of 2 ident) ident H (empty2_array 2 2)) as (B' & E & HB');
    [reflexivity|reflexivity|apply cols_of_ok|]. exists B'. split; [exact E|exact HB'].
Qed.
Example C39_invert_singular_nonvacuous : exists B' X said, invert exact_getrf exact_getrs (mk2 2 2 (fun _ _ => 1%R)) (empty2 2 2) = Ok (B', said) /\ 1 <= said /\ is_mat B' 2 2 X.
Proof.
  apply (C39_invert_singular _ _ _ _ 2 (fun _ _ => 1%R)); [apply C39_lapack_promise_satisfiable|apply mk2_mat; lia|apply empty2_array|]. rewrite det2_det. unfold det2. lra.
Qed.

(** ** eigenvalues of a symmetric tridiagonal matrix *)
(** eigvecs is filled column by column by LAPACK and read row by row: its ROWS are the orthonormal eigenvectors *)
Theorem C39_eig : forall stev diag subdiag eigvals eigvecs n d e, 0 < n -> stev_ok stev n d e ->
  is_vec diag n d -> is_vec subdiag (n - 1) e -> array1 eigvals n -> array2 eigvecs n n ->
  exists sub' vals' vecs' w U, eig_sym_tri stev diag subdiag eigvals eigvecs = Ok (sub', vals', vecs', 0) /\
    is_vec vals' n w /\ is_mat vecs' n n U /\ array1 sub' (n - 1) /\
    (forall j i, j < n -> i < n -> rsum n (fun k => tridiag d e i k * U j k)%R = (w j * U j i)%R) /\
    (forall j l, j < n -> l < n -> rsum n (fun i => U j i * U l i)%R = if Nat.eqb j l then 1%R else 0%R) /\
    (forall j l, j < n -> l < n -> rsum n (fun i => U i j * U i l)%R = if Nat.eqb j l then 1%R else 0%R).
Proof.
  intros stev diag subdiag eigvals eigvecs n d e Hn S ((Dd & Ld) & Hd) ((De & Le) & He) (Dw & Lw) (Dz & Lz). unfold eig_sym_tri. rewrite Dd, De, Dw, Dz.
  destruct (Nat.eqb_spec n (n - 1 + 1)); [|lia]. rewrite !Nat.eqb_refl. cbn [andb].
  destruct (copy_vec (cells diag) (repeat None n) n d) as (d1 & -> & L1 & H1); [apply repeat_length|exact Hd|]. cbn [bind].
  destruct (S d1 (cells subdiag) (cells eigvecs) L1 Le Lz H1 He) as (d2 & e2 & z2 & w & V & -> & L2 & H2 & Le2 & (Lz2 & HV) & Eig & Ort).
  destruct (copy_vec d2 (cells eigvals) n w Lw H2) as (w1 & -> & Lw1 & Hw1). cbn [bind Z.eqb].
  eexists _, _, _, w, (fun i j => V j i). split; [reflexivity|]. split; [split; [split; [reflexivity|exact Lw1]|exact Hw1]|].
  split; [split; [split; [reflexivity|exact Lz2]|]|].
  - intros i j Hi Hj. unfold entry. cbn [cells]. rewrite <- (HV j i) by assumption. f_equal. lia.
  - split; [split; [reflexivity|exact Le2]|]. split; [|split].
    + intros j i Hj Hi. apply Eig; assumption.
    + intros j l Hj Hl. apply Ort; assumption.
    + exact (rows_cols_orthonormal n (fun i j => V j i) Ort).
Qed.
Print Assumptions C39_eig.
(** LAPACK's error code only prints a message: the eigenvalues are copied whatever it says *)
Theorem C39_eig_failure : forall (stev : dstev_fun) diag subdiag eigvals eigvecs n d, 0 < n -> is_vec diag n d -> array1 subdiag (n - 1) -> array1 eigvals n -> array2 eigvecs n n ->
  (forall dl el zl, exists d' e' z' info w, stev n dl el zl = (d', e', z', info) /\ info <> 0%Z /\ forall i, i < n -> nth_error d' i = Some (Some (w i))) ->
  exists sub' vals' vecs' w, eig_sym_tri stev diag subdiag eigvals eigvecs = Ok (sub', vals', vecs', 1) /\ is_vec vals' n w.
Proof.
  intros stev diag subdiag eigvals eigvecs n d Hn ((Dd & Ld) & Hd) (De & Le) (Dw & Lw) (Dz & Lz) S. unfold eig_sym_tri. rewrite Dd, De, Dw, Dz.
  destruct (Nat.eqb_spec n (n - 1 + 1)); [|lia]. rewrite !Nat.eqb_refl. cbn [andb].
  destruct (copy_vec (cells diag) (repeat None n) n d) as (d1 & -> & L1 & H1); [apply repeat_length|exact Hd|]. cbn [bind].
  destruct (S d1 (cells subdiag) (cells eigvecs)) as (d2 & e2 & z2 & info & w & -> & Hi & H2).
  destruct (copy_vec d2 (cells eigvals) n w Lw H2) as (w1 & -> & Lw1 & Hw1). cbn [bind]. destruct (Z.eqb_spec info 0); [contradiction|].
  eexists _, _, _, w. split; [reflexivity|]. split; [split; [reflexivity|exact Lw1]|exact Hw1].
Qed.
Print Assumptions C39_eig_failure.
Theorem C39_eig_rejects : forall stev diag subdiag eigvals eigvecs,
  (forall n, ~ (dims diag = [n + 1] /\ dims subdiag = [n] /\ dims eigvals = [n + 1] /\ dims eigvecs = [n + 1; n + 1])) ->
  eig_sym_tri stev diag subdiag eigvals eigvecs = Err Exited.
Proof.
  intros stev diag subdiag eigvals eigvecs H. unfold eig_sym_tri. destruct (dims diag) as [|nd [|]]; try reflexivity. destruct (dims subdiag) as [|ns [|]]; try reflexivity.
  destruct (dims eigvals) as [|nw [|]]; try reflexivity. destruct (dims eigvecs) as [|mz [|nz [|]]]; try reflexivity.
  destruct (Nat.eqb_spec nd (ns + 1)) as [->|]; [|reflexivity]. destruct (Nat.eqb_spec nw (ns + 1)) as [->|]; [|reflexivity]. destruct (Nat.eqb_spec mz (ns + 1)) as [->|]; [|reflexivity]. destruct (Nat.eqb_spec nz (ns + 1)) as [->|]; [|reflexivity].
  exfalso. apply (H ns). auto.
Qed.
Print Assumptions C39_eig_rejects.

(** the matrix [[0,1],[1,0]]: eigenvalues 1 and -1 *)
Definition stev_swap : dstev_fun := fun n d e z =>
  let s := (/ sqrt 2)%R in ([Some 1%R; Some (-1)%R], e, [Some s; Some s; Some s; Some (- s)%R], 0%Z).
Example C39_eig_nonvacuous : exists sub' vals' vecs' w U,
  eig_sym_tri stev_swap (mk1 2 (fun _ => 0%R)) (mk1 1 (fun _ => 1%R)) (empty1 2) (empty2 2 2) = Ok (sub', vals', vecs', 0) /\
    is_vec vals' 2 w /\ is_mat vecs' 2 2 U /\
    (forall j i, j < 2 -> i < 2 -> rsum 2 (fun k => tridiag (fun _ => 0%R) (fun _ => 1%R) i k * U j k)%R = (w j * U j i)%R).
Proof.
  destruct (C39_eig stev_swap (mk1 2 (fun _ => 0%R)) (mk1 1 (fun _ => 1%R)) (empty1 2) (empty2 2 2) 2 (fun _ => 0%R) (fun _ => 1%R)) as (a & b & c & w & U & E & H1 & H2 & _ & H3 & _).
  - lia.
  - intros dl el zl _ Le _ _ _. unfold stev_swap. cbv zeta.
    assert (S2 : (sqrt 2 * sqrt 2 = 2)%R) by (apply sqrt_sqrt; lra). assert (P2 : (0 < sqrt 2)%R) by (apply sqrt_lt_R0; lra).
    assert (SS : (/ sqrt 2 * / sqrt 2 = / 2)%R) by (rewrite <- Rinv_mult, S2; reflexivity).
    set (s := (/ sqrt 2)%R) in *.
    eexists _, _, _, (fun j => if Nat.eqb j 0 then 1%R else (-1)%R), (fun i j => if Nat.eqb (i * j) 1 then (- s)%R else s).
    split; [reflexivity|]. split; [reflexivity|]. split; [intros [|[|i]] Hi; try lia; reflexivity|]. split; [exact Le|]. split; [split; [reflexivity|intros [|[|i]] [|[|j]] Hi Hj; try lia; reflexivity]|].
    split; intros [|[|j]] [|[|i]] Hj Hi; try lia; unfold tridiag; cbn; ring_simplify; replace (s ^ 2)%R with (s * s)%R by ring; try (rewrite SS); lra.
  - apply mk1_vec.
  - apply mk1_vec.
  - apply empty1_array.
  - apply empty2_array.
  - exists a, b, c, w, U. auto.
Qed.
