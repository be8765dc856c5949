(** Accuracy of tensor product rules. *)
From Coq Require Import List Arith ZArith Reals Lia Lra.
From Coquelicot Require Import Coquelicot.
Import ListNotations.
Require Import Verif.RSum Verif.Spec_Poly Verif.Spec_Quad Verif.Proof_Quad.
Open Scope R_scope.

Lemma rule_moments n deg tol x w : quad_rule n deg tol x w -> moments n deg tol x w.
Proof.
  intros [_ _ _ _ E] k Hk.
  set (c := fun i => if (i =? k)%nat then 1 else 0).
  assert (Pc : forall t, poly deg c t = t ^ k).
  { intros t. unfold poly. rewrite (rsum_single (S deg) k); [unfold c; rewrite Nat.eqb_refl; ring|lia|].
    intros i Hi Hn. unfold c. destruct (Nat.eqb_spec i k); [contradiction|ring]. }
  assert (Nc : rsum (S deg) (fun i => Rabs (c i)) = 1).
  { rewrite (rsum_single (S deg) k); [unfold c; rewrite Nat.eqb_refl; apply Rabs_R1|lia|].
    intros i Hi Hn. unfold c. destruct (Nat.eqb_spec i k); [contradiction|apply Rabs_R0]. }
  assert (J : integral (poly deg c) (mom k)).
  { unfold integral. eapply is_RInt_ext; [|apply mom_int]. intros t _. symmetry. apply Pc. }
  specialize (E c (mom k) J). rewrite Nc, Rmult_1_r in E.
  rewrite (rsum_ext n _ (fun i => w i * x i ^ k)) in E; [exact E|]. intros i _. rewrite Pc. reflexivity.
Qed.

Lemma mom_le k : Rabs (mom k) <= 2.
Proof.
  rewrite mom_z. assert (N : 1 <= INR (S k)) by (rewrite S_INR; pose proof (pos_INR k); lra).
  unfold zmom2. destruct (Nat.even k).
  - rewrite Rabs_right; [|apply Rle_ge; apply Rlt_le; apply Rdiv_lt_0_compat; lra].
    apply Rmult_le_reg_r with (INR (S k)); [lra|]. unfold Rdiv. rewrite Rmult_assoc, Rinv_l by lra. lra.
  - unfold Rdiv. rewrite Rmult_0_l, Rabs_R0. lra.
Qed.

(** products of approximations *)
Lemma prod2_err t a b M N : 0 <= t -> Rabs (a - M) <= t -> Rabs (b - N) <= t -> Rabs M <= 2 -> Rabs N <= 2 ->
  Rabs (a * b - M * N) <= (2 + t) ^ 2 - 4.
Proof.
  intros Ht Ha Hb HM HN.
  replace (a * b - M * N) with ((a - M) * (b - N) + (a - M) * N + M * (b - N)) by ring.
  eapply Rle_trans; [apply Rabs_triang|]. eapply Rle_trans; [apply Rplus_le_compat_r; apply Rabs_triang|].
  rewrite !Rabs_mult. pose proof (Rabs_pos (a - M)). pose proof (Rabs_pos (b - N)). pose proof (Rabs_pos M). pose proof (Rabs_pos N).
  assert (Rabs (a - M) * Rabs (b - N) <= t * t) by (apply Rmult_le_compat; lra).
  assert (Rabs (a - M) * Rabs N <= t * 2) by (apply Rmult_le_compat; lra).
  assert (Rabs M * Rabs (b - N) <= 2 * t) by (apply Rmult_le_compat; lra). nra.
Qed.
Lemma prod3_err t a b e M N K : 0 <= t -> Rabs (a - M) <= t -> Rabs (b - N) <= t -> Rabs (e - K) <= t -> Rabs M <= 2 -> Rabs N <= 2 -> Rabs K <= 2 ->
  Rabs (a * b * e - M * N * K) <= (2 + t) ^ 3 - 8.
Proof.
  intros Ht Ha Hb He HM HN HK. pose proof (prod2_err t a b M N Ht Ha Hb HM HN) as P.
  replace (a * b * e - M * N * K) with ((a * b - M * N) * (e - K) + (a * b - M * N) * K + (M * N) * (e - K)) by ring.
  eapply Rle_trans; [apply Rabs_triang|]. eapply Rle_trans; [apply Rplus_le_compat_r; apply Rabs_triang|].
  rewrite !Rabs_mult. pose proof (Rabs_pos (a * b - M * N)). pose proof (Rabs_pos (e - K)). pose proof (Rabs_pos M). pose proof (Rabs_pos N). pose proof (Rabs_pos K).
  set (d2 := (2 + t) ^ 2 - 4) in *.
  assert (Rabs (a * b - M * N) * Rabs (e - K) <= d2 * t) by (apply Rmult_le_compat; lra).
  assert (Rabs (a * b - M * N) * Rabs K <= d2 * 2) by (apply Rmult_le_compat; lra).
  assert (Rabs M * Rabs N <= 2 * 2) by (apply Rmult_le_compat; lra).
  assert (Rabs M * Rabs N * Rabs (e - K) <= 4 * t) by (apply Rmult_le_compat; try lra; apply Rmult_le_pos; lra).
  unfold d2 in *. nra.
Qed.

Lemma integral_unique f u v : integral f u -> integral f v -> u = v.
Proof. intros A B. assert (U := is_RInt_unique _ _ _ _ A). assert (V := is_RInt_unique _ _ _ _ B). etransitivity; [symmetry; exact U|exact V]. Qed.
Lemma integral_ext f g v : (forall t, f t = g t) -> integral f v -> integral g v.
Proof. intros E H. unfold integral in *. eapply is_RInt_ext; [|exact H]. intros t _. apply E. Qed.

Lemma poly2_val deg c v : integral2 (poly2 deg c) v -> v = rsum (S deg) (fun a => rsum (S deg) (fun b => c a b * (mom a * mom b))).
Proof.
  intros (g & Hg & Hv).
  assert (G : forall y, g y = poly deg (fun b => rsum (S deg) (fun a => c a b * mom a)) y).
  { intros y. eapply integral_unique; [apply Hg|].
    apply integral_ext with (poly deg (fun a => rsum (S deg) (fun b => c a b * y ^ b))).
    - intros x. unfold poly, poly2. apply rsum_ext. intros a _. rewrite <- rsum_scal_r. apply rsum_ext. intros; ring.
    - assert (P := poly_int deg (fun a => rsum (S deg) (fun b => c a b * y ^ b))). unfold integral.
      replace (poly deg (fun b => rsum (S deg) (fun a => c a b * mom a)) y) with (rsum (S deg) (fun a => rsum (S deg) (fun b => c a b * y ^ b) * mom a)); [exact P|].
      unfold poly. rewrite (rsum_ext (S deg) (fun b => rsum (S deg) (fun a => c a b * mom a) * y ^ b) (fun b => rsum (S deg) (fun a => c a b * mom a * y ^ b))) by (intros; rewrite rsum_scal_r; reflexivity).
      rewrite (rsum_swap (S deg) (S deg) (fun b a => c a b * mom a * y ^ b)). apply rsum_ext. intros a _. rewrite <- rsum_scal_r. apply rsum_ext. intros; ring. }
  apply (integral_ext _ _ _ G) in Hv. rewrite (integral_unique _ _ _ Hv (poly_int _ _)).
  rewrite (rsum_swap (S deg) (S deg) (fun a b => c a b * (mom a * mom b))). apply rsum_ext. intros b _. rewrite <- rsum_scal_r. apply rsum_ext. intros; ring.
Qed.

Lemma poly3_val deg c v : integral3 (poly3 deg c) v ->
  v = rsum (S deg) (fun a => rsum (S deg) (fun b => rsum (S deg) (fun e => c a b e * (mom a * mom b * mom e)))).
Proof.
  intros (g & Hg & Hv).
  assert (G : forall z, g z = poly deg (fun e => rsum (S deg) (fun a => rsum (S deg) (fun b => c a b e * (mom a * mom b)))) z).
  { intros z. assert (H2 : integral2 (poly2 deg (fun a b => rsum (S deg) (fun e => c a b e * z ^ e))) (g z)).
    { destruct (Hg z) as (h & Hh & Hz). exists h. split; [|exact Hz]. intros y. eapply integral_ext; [|apply Hh].
      intros x. unfold poly2, poly3. apply rsum_ext. intros a _. apply rsum_ext. intros b _. rewrite <- rsum_scal_r. apply rsum_ext. intros; ring. }
    rewrite (poly2_val _ _ _ H2). unfold poly.
    rewrite (rsum_ext (S deg) (fun k => rsum (S deg) _ * z ^ k) (fun e => rsum (S deg) (fun a => rsum (S deg) (fun b => c a b e * (mom a * mom b) * z ^ e)))).
    2:{ intros e _. rewrite <- rsum_scal_r. apply rsum_ext. intros a _. rewrite <- rsum_scal_r. reflexivity. }
    rewrite (rsum_swap (S deg) (S deg) (fun e a => rsum (S deg) (fun b => c a b e * (mom a * mom b) * z ^ e))). apply rsum_ext. intros a _.
    rewrite (rsum_swap (S deg) (S deg) (fun e b => c a b e * (mom a * mom b) * z ^ e)). apply rsum_ext. intros b _.
    rewrite <- rsum_scal_r. apply rsum_ext. intros; ring. }
  apply (integral_ext _ _ _ G) in Hv. rewrite (integral_unique _ _ _ Hv (poly_int _ _)).
  rewrite (rsum_ext (S deg) (fun k => rsum (S deg) _ * mom k) (fun e => rsum (S deg) (fun a => rsum (S deg) (fun b => c a b e * (mom a * mom b * mom e))))).
  2:{ intros e _. rewrite <- rsum_scal_r. apply rsum_ext. intros a _. rewrite <- rsum_scal_r. apply rsum_ext. intros; ring. }
  rewrite (rsum_swap (S deg) (S deg) (fun e a => rsum (S deg) (fun b => c a b e * (mom a * mom b * mom e)))). apply rsum_ext. intros a _.
  rewrite (rsum_swap (S deg) (S deg) (fun e b => c a b e * (mom a * mom b * mom e))). reflexivity.
Qed.

Lemma sum2_factor n f g : rsum n (fun j => rsum n (fun i => f i * g j)) = rsum n f * rsum n g.
Proof. rewrite (rsum_ext n _ (fun j => rsum n f * g j)) by (intros; apply rsum_scal_r). apply rsum_scal_l. Qed.

(** * two dimensions *)
Theorem tensor2 n deg tol x w c v : 0 <= tol -> quad_rule n deg tol x w -> integral2 (poly2 deg c) v ->
  Rabs (rsum n (fun j => rsum n (fun i => w i * w j * poly2 deg c (x i) (x j))) - v) <= ((2 + tol) ^ 2 - 4) * norm2 deg c.
Proof.
  intros Ht Q Hv. apply rule_moments in Q. rewrite (poly2_val _ _ _ Hv).
  set (S_ := fun k => rsum n (fun i => w i * x i ^ k)).
  replace (rsum n (fun j => rsum n (fun i => w i * w j * poly2 deg c (x i) (x j)))) with
    (rsum (S deg) (fun a => rsum (S deg) (fun b => c a b * (S_ a * S_ b)))).
  - rewrite <- rsum_minus. eapply Rle_trans; [apply rsum_abs|]. unfold norm2. rewrite <- rsum_scal_l. apply rsum_le. intros a Ha.
    rewrite <- rsum_minus. eapply Rle_trans; [apply rsum_abs|]. rewrite <- rsum_scal_l. apply rsum_le. intros b Hb.
    replace (c a b * (S_ a * S_ b) - c a b * (mom a * mom b)) with (c a b * (S_ a * S_ b - mom a * mom b)) by ring.
    rewrite Rabs_mult, Rmult_comm. apply Rmult_le_compat_r; [apply Rabs_pos|]. apply prod2_err; try apply mom_le; try exact Ht; apply Q; lia.
  - symmetry. unfold poly2.
    rewrite (rsum_ext n _ (fun j => rsum (S deg) (fun a => rsum n (fun i => rsum (S deg) (fun b => c a b * (w i * x i ^ a * (w j * x j ^ b))))))).
    2:{ intros j _. rewrite <- rsum_swap. apply rsum_ext. intros i _. rewrite <- rsum_scal_l. apply rsum_ext. intros a _. rewrite <- rsum_scal_l. apply rsum_ext. intros; ring. }
    rewrite rsum_swap. apply rsum_ext. intros a _.
    rewrite (rsum_ext n _ (fun j => rsum (S deg) (fun b => rsum n (fun i => c a b * (w i * x i ^ a * (w j * x j ^ b)))))) by (intros; apply rsum_swap).
    rewrite rsum_swap. apply rsum_ext. intros b _. unfold S_. rewrite <- sum2_factor, <- rsum_scal_l. apply rsum_ext. intros j _. apply rsum_scal_l.
Qed.

(** * three dimensions *)
Theorem tensor3 n deg tol x w c v : 0 <= tol -> quad_rule n deg tol x w -> integral3 (poly3 deg c) v ->
  Rabs (rsum n (fun k => rsum n (fun j => rsum n (fun i => w i * w j * w k * poly3 deg c (x i) (x j) (x k)))) - v) <= ((2 + tol) ^ 3 - 8) * norm3 deg c.
Proof.
  intros Ht Q Hv. apply rule_moments in Q. rewrite (poly3_val _ _ _ Hv).
  set (S_ := fun k => rsum n (fun i => w i * x i ^ k)).
  replace (rsum n (fun k => rsum n (fun j => rsum n (fun i => w i * w j * w k * poly3 deg c (x i) (x j) (x k))))) with
    (rsum (S deg) (fun a => rsum (S deg) (fun b => rsum (S deg) (fun e => c a b e * (S_ a * S_ b * S_ e))))).
  - rewrite <- rsum_minus. eapply Rle_trans; [apply rsum_abs|]. unfold norm3. rewrite <- rsum_scal_l. apply rsum_le. intros a Ha.
    rewrite <- rsum_minus. eapply Rle_trans; [apply rsum_abs|]. rewrite <- rsum_scal_l. apply rsum_le. intros b Hb.
    rewrite <- rsum_minus. eapply Rle_trans; [apply rsum_abs|]. rewrite <- rsum_scal_l. apply rsum_le. intros e He.
    replace (c a b e * (S_ a * S_ b * S_ e) - c a b e * (mom a * mom b * mom e)) with (c a b e * (S_ a * S_ b * S_ e - mom a * mom b * mom e)) by ring.
    rewrite Rabs_mult, Rmult_comm. apply Rmult_le_compat_r; [apply Rabs_pos|]. apply prod3_err; try apply mom_le; try exact Ht; apply Q; lia.
  - symmetry.
    (* the innermost two sums for fixed k are the 2D case with coefficients in z *)
    assert (P : forall k, rsum n (fun j => rsum n (fun i => w i * w j * w k * poly3 deg c (x i) (x j) (x k))) =
      rsum (S deg) (fun a => rsum (S deg) (fun b => rsum (S deg) (fun e => c a b e * (S_ a * S_ b) * (w k * x k ^ e))))).
    { intros k. unfold poly3.
      rewrite (rsum_ext n _ (fun j => rsum (S deg) (fun a => rsum n (fun i => rsum (S deg) (fun b => rsum (S deg) (fun e => c a b e * (w i * x i ^ a * (w j * x j ^ b)) * (w k * x k ^ e))))))).
      2:{ intros j _. rewrite <- rsum_swap. apply rsum_ext. intros i _. rewrite <- rsum_scal_l. apply rsum_ext. intros a _. rewrite <- rsum_scal_l. apply rsum_ext. intros b _. rewrite <- rsum_scal_l. apply rsum_ext. intros; ring. }
      rewrite rsum_swap. apply rsum_ext. intros a _.
      rewrite (rsum_ext n _ (fun j => rsum (S deg) (fun b => rsum n (fun i => rsum (S deg) (fun e => c a b e * (w i * x i ^ a * (w j * x j ^ b)) * (w k * x k ^ e)))))) by (intros; apply rsum_swap).
      rewrite rsum_swap. apply rsum_ext. intros b _.
      rewrite (rsum_ext n _ (fun j => rsum (S deg) (fun e => rsum n (fun i => c a b e * (w i * x i ^ a * (w j * x j ^ b)) * (w k * x k ^ e))))) by (intros; apply rsum_swap).
      rewrite rsum_swap. apply rsum_ext. intros e _. unfold S_. rewrite <- sum2_factor, <- rsum_scal_l, <- rsum_scal_r. apply rsum_ext. intros j _. rewrite rsum_scal_r, rsum_scal_l. reflexivity. }
    rewrite (rsum_ext n _ _ (fun k _ => P k)).
    rewrite rsum_swap. apply rsum_ext. intros a _. rewrite rsum_swap. apply rsum_ext. intros b _. rewrite rsum_swap. apply rsum_ext. intros e _.
    rewrite rsum_scal_l. change (rsum n (fun i => w i * x i ^ e)) with (S_ e). ring.
Qed.

(** sums over the grid *)
Lemma grid_at2 q i j : (i < q)%nat -> (j < q)%nat -> grid q (j * q + i) 0 = i /\ grid q (j * q + i) 1 = j.
Proof.
  intros Hi Hj. unfold grid. cbn [Nat.pow]. rewrite Nat.mul_1_r, Nat.div_1_r. split.
  - rewrite Nat.add_comm, Nat.mod_add by lia. apply Nat.mod_small. exact Hi.
  - rewrite Nat.div_add_l by lia. rewrite (Nat.div_small i) by exact Hi. rewrite Nat.add_0_r. apply Nat.mod_small. exact Hj.
Qed.
Lemma grid_at3 q i j k : (i < q)%nat -> (j < q)%nat -> (k < q)%nat ->
  grid q (k * (q * q) + (j * q + i)) 0 = i /\ grid q (k * (q * q) + (j * q + i)) 1 = j /\ grid q (k * (q * q) + (j * q + i)) 2 = k.
Proof.
  intros Hi Hj Hk. replace (k * (q * q) + (j * q + i))%nat with ((k * q + j) * q + i)%nat by ring. unfold grid. cbn [Nat.pow]. rewrite !Nat.mul_1_r, Nat.div_1_r. split; [|split].
  - rewrite Nat.add_comm, Nat.mod_add by lia. apply Nat.mod_small. exact Hi.
  - rewrite Nat.div_add_l by lia. rewrite (Nat.div_small i) by exact Hi. rewrite Nat.add_0_r, Nat.add_comm, Nat.mod_add by lia. apply Nat.mod_small. exact Hj.
  - replace ((k * q + j) * q + i)%nat with (k * (q * q) + (j * q + i))%nat by ring. rewrite Nat.div_add_l by nia. rewrite (Nat.div_small (j * q + i)) by nia. rewrite Nat.add_0_r. apply Nat.mod_small. exact Hk.
Qed.

Lemma grid_sum2 q (F : nat -> nat -> R) :
  rsum (q ^ 2) (fun m => F (grid q m 0) (grid q m 1)) = rsum q (fun j => rsum q (fun i => F i j)).
Proof.
  replace (q ^ 2)%nat with (q * q)%nat by (cbn [Nat.pow]; lia). rewrite rsum_mul. apply rsum_ext. intros j Hj. apply rsum_ext. intros i Hi.
  destruct (grid_at2 q i j Hi Hj) as [-> ->]. reflexivity.
Qed.
Lemma grid_sum3 q (F : nat -> nat -> nat -> R) :
  rsum (q ^ 3) (fun m => F (grid q m 0) (grid q m 1) (grid q m 2)) = rsum q (fun k => rsum q (fun j => rsum q (fun i => F i j k))).
Proof.
  replace (q ^ 3)%nat with (q * (q * q))%nat by (cbn [Nat.pow]; lia). rewrite rsum_mul. apply rsum_ext. intros k Hk. rewrite rsum_mul. apply rsum_ext. intros j Hj. apply rsum_ext. intros i Hi.
  destruct (grid_at3 q i j k Hi Hj Hk) as (-> & -> & ->). reflexivity.
Qed.
