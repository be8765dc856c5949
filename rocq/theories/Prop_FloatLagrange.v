(** Property theorem C73: rounding errors of the Lagrange routines (elements/lagrange_polynomials.cpp,
    elements/lagrange_element.cpp).  [rounds], [binary64], [u64], [gamma] are in Spec_Float; [ell], [interp], [field3],
    [separated], [clean], [tol] in Spec_Lagrange. *)
From Coq Require Import List Reals NArith ZArith Arith Lia Lra.
Import ListNotations.
Require Import Verif.Base Verif.RBase Verif.RSum Verif.RDer Verif.Spec_Lagrange Verif.Spec_Mat
  Verif.Lagrange_Math Verif.Model_Common Verif.Model_Lagrange Verif.Proof_Common Verif.Proof_Lagrange Verif.Proof_LagElem Verif.Spec_Float Verif.Float_Base
  Verif.Model_FloatLagrange Verif.Proof_FloatLagrange Verif.Proof_FloatLagrange2 Verif.Float_Eval Verif.Ex_FloatLagrange.
Open Scope R_scope.

(** with exact arithmetic these are the functions of Model_Lagrange.v *)
Theorem C73_exact_case : let id := fun x : R => x in
  find_coincident_vertexf id = find_coincident_vertex /\ compute_barycentric_weightsf id = compute_barycentric_weights /\
  evalf id = eval /\ eval_interpf id = eval_interp /\ eval_der_interpf id = eval_der_interp /\ eval_derf id = eval_der /\
  new_lagrange_elementf id = new_lagrange_element /\ le_eval_basisf id = le_eval_basis /\ le_eval_grad_basisf id = le_eval_grad_basis /\
  le_eval_approxf id = le_eval_approx /\ le_eval_grad_approxf id = le_eval_grad_approx /\ le_eval_jacf id = le_eval_jac /\
  le_eval_det_jacf id = le_eval_det_jac /\ le_eval_inv_jacf id = le_eval_inv_jac.
Proof. repeat split; reflexivity. Qed.
Print Assumptions C73_exact_case.

(** doubles: rounding never brings a difference below the coincidence tolerance, so in doubles the same coordinates are
    coincident as in exact arithmetic *)
Theorem C73_doubles : rounds u64 binary64 /\ (forall x, tol <= Rabs x -> tol <= Rabs (binary64 x)) /\
  (forall N Z X, separated N Z -> clean N Z X -> find_coincident_vertexf binary64 N Z X = find_coincident_vertex N Z X).
Proof.
  split; [exact binary64_rounds|]. split; [exact b64_tol|]. intros N Z X S C. apply (findf_same u64); [assert (H := u64_range); lra|exact binary64_rounds|exact b64_tol|exact S|exact C].
Qed.
Print Assumptions C73_doubles.

Lemma gle u m k : 0 <= u -> (k <= m)%nat -> INR m * u < 1 -> INR k * u < 1.
Proof. intros H L B. eapply Rle_lt_trans; [|exact B]. apply Rmult_le_compat_r; [exact H|]. apply le_INR. exact L. Qed.

(** every computed weight has a small relative error, whatever the vertices *)
Theorem C73_weights : forall u rnd, 0 <= u < 1 -> rounds u rnd -> forall N Z w0, distinct N Z -> INR (3 * (N - 1)) * u < 1 ->
  exists w w', compute_barycentric_weightsf rnd N Z w0 = Ok w /\ weights_of N Z w' /\
    forall i, (i < N)%nat -> Rabs (w i - w' i) <= gamma u (3 * (N - 1)) * Rabs (w' i).
Proof.
  intros u rnd Hu Hr N Z w0 D Hm. destruct (weightsf_ok u rnd Hu Hr N Z w0 D) as (w & E & H & _). exists w, (bw N Z). split; [exact E|]. split; [apply bw_weights, D|].
  intros i Hi. destruct (H i Hi) as (t & W & ->). replace (bw N Z i * t - bw N Z i) with (bw N Z i * (t - 1)) by ring. rewrite Rabs_mult, Rmult_comm.
  apply Rmult_le_compat_r; [apply Rabs_pos|]. apply (within_gamma u Hu); assumption.
Qed.
Print Assumptions C73_weights.

(** the common hypotheses: rounding with unit roundoff u that respects the tolerance, vertices at least tol apart, weights
    computed by the routine *)
Definition rounded_setting (u : R) (rnd : R -> R) (N : nat) (Z w : nat -> R) : Prop :=
  0 <= u < 1 /\ rounds u rnd /\ (forall x, tol <= Rabs x -> tol <= Rabs (rnd x)) /\ (N.of_nat N < 2 ^ 64)%N /\ separated N Z /\
  exists w0, compute_barycentric_weightsf rnd N Z w0 = Ok w.
Lemma setting_near u rnd N Z w : rounded_setting u rnd N Z w -> distinct N Z /\ near_weights u N Z w.
Proof.
  intros (Hu & Hr & _ & _ & S & w0 & E). assert (D := separated_distinct _ _ S). split; [exact D|].
  destruct (weightsf_ok u rnd Hu Hr N Z w0 D) as (w' & E' & H & _). rewrite E in E'. injection E' as <-. exact H.
Qed.
Lemma setting_point u rnd N Z w X : rounded_setting u rnd N Z w -> clean N Z X -> point_ok N Z X (find_coincident_vertexf rnd N Z X).
Proof. intros (Hu & Hr & Ht & Hn & S & _) C. apply (findf_point_ok u rnd Hu Hr Ht); assumption. Qed.

(** basis polynomials: small relative error, even near a zero of the polynomial *)
Theorem C73_basis : forall u rnd N Z w, rounded_setting u rnd N Z w -> INR (5 * N) * u < 1 -> forall i X, (i < N)%nat -> clean N Z X ->
  exists v, evalf rnd N i (find_coincident_vertexf rnd N Z X) Z w X = Ok v /\ Rabs (v - ell N Z i X) <= gamma u (5 * N) * Rabs (ell N Z i X).
Proof.
  intros u rnd N Z w S Hm i X Hi C. destruct (setting_near _ _ _ _ _ S) as (D & NW). assert (P := setting_point _ _ _ _ _ X S C). destruct S as (Hu & Hr & _).
  destruct (evalf_ok u rnd Hu Hr N Z w X _ i D NW Hi P) as (t & W & E). eexists. split; [exact E|]. replace (ell N Z i X * t - ell N Z i X) with (ell N Z i X * (t - 1)) by ring.
  rewrite Rabs_mult, Rmult_comm. apply Rmult_le_compat_r; [apply Rabs_pos|]. apply (within_gamma u Hu); assumption.
Qed.
Print Assumptions C73_basis.

(** interpolation is backward stable: the computed value is the exact interpolant of coefficients each off by a small
    relative amount *)
Theorem C73_interpolation : forall u rnd N Z w, rounded_setting u rnd N Z w -> INR (6 * N + 1) * u < 1 -> forall c X, clean N Z X ->
  exists v c', eval_interpf rnd N (find_coincident_vertexf rnd N Z X) Z w X (fun i => Ok (c i)) = Ok v /\ v = interp N Z c' X /\
    (forall i, (i < N)%nat -> Rabs (c' i - c i) <= gamma u (6 * N + 1) * Rabs (c i)) /\
    Rabs (v - interp N Z c X) <= gamma u (6 * N + 1) * rsum N (fun i => Rabs (c i * ell N Z i X)) /\
    (forall i, (i < N)%nat -> X = Z i -> v = c i).
Proof.
  intros u rnd N Z w S Hm c X C. destruct (setting_near _ _ _ _ _ S) as (D & NW). assert (P := setting_point _ _ _ _ _ X S C). destruct S as (Hu & Hr & Ht & Hn & Sp & _).
  destruct (eval_interpf_ok u rnd Hu Hr N Z w X _ (fun i => Ok (c i)) c D NW P ltac:(reflexivity)) as (th & W & E). exists (interp N Z (fun j => c j * th j) X), (fun j => c j * th j). split; [exact E|]. split; [reflexivity|].
  split; [|split].
  - intros i Hi. replace (c i * th i - c i) with (c i * (th i - 1)) by ring. rewrite Rabs_mult, Rmult_comm. apply Rmult_le_compat_r; [apply Rabs_pos|]. apply (within_gamma u Hu); [exact Hm|apply W, Hi].
  - assert (B := sum_pert u Hu (6 * N + 1) N (fun j => c j * ell N Z j X) th Hm W). unfold interp. rewrite (rsum_ext N (fun i => c i * th i * ell N Z i X) (fun j => c j * ell N Z j X * th j)) by (intros; ring). exact B.
  - intros i Hi ->. rewrite (findf_same u rnd Hu Hr Ht) in E by assumption. rewrite (find_one N Z (Z i) i Hn Hi) in E.
    + unfold eval_interpf in E. rewrite (proj2 (N.ltb_lt _ _)) in E by lia. rewrite Nnat.Nat2N.id in E. injection E as <-. reflexivity.
    + rewrite Rminus_diag_eq, Rabs_R0 by reflexivity. apply tol_pos.
    + intros j Hj Ne. apply Sp; assumption.
Qed.
Print Assumptions C73_interpolation.

(** LagrangeElement::eval_approx is backward stable too *)
Lemma index_split n i j k : (i < n)%nat -> (j < n)%nat -> let m := (i + j * n + k * n * n)%nat in (m mod n = i /\ (m / n) mod n = j /\ m / n / n = k)%nat.
Proof.
  intros Hi Hj m. assert (E : m = (i + (j + k * n) * n)%nat) by (unfold m; ring).
  assert (Q : (m / n = j + k * n)%nat) by (rewrite E, Nat.div_add by lia; rewrite Nat.div_small by exact Hi; lia).
  split; [rewrite E, Nat.mod_add by lia; apply Nat.mod_small; exact Hi|]. rewrite Q. split; [rewrite Nat.mod_add by lia; apply Nat.mod_small; exact Hj|].
  rewrite Nat.div_add by lia. rewrite Nat.div_small by exact Hj. lia.
Qed.
Theorem C73_field : forall u rnd e, let n := le_N e in let Z := le_Z e in rounded_setting u rnd n Z (le_w e) -> INR (3 * (6 * n + 1)) * u < 1 ->
  forall c x y z C, clean n Z x -> clean n Z y -> clean n Z z ->
  exists v c' C', le_eval_approxf rnd e c x y z C = Ok (v, C') /\ v = field3 n Z c' x y z /\
    (forall m, (m < n * n * n)%nat -> Rabs (c' m - c m) <= gamma u (3 * (6 * n + 1)) * Rabs (c m)) /\
    Rabs (v - field3 n Z c x y z) <= gamma u (3 * (6 * n + 1)) * rsum n (fun k => rsum n (fun j => rsum n (fun i => Rabs (c (i + j * n + k * n * n)%nat * phi3 n Z i j k x y z)))).
Proof.
  intros u rnd e n Z S Hm c x y z C Cx Cy Cz. destruct (setting_near _ _ _ _ _ S) as (D & NW). destruct S as (Hu & Hr & Ht & Hn & Sp & _).
  destruct (eval_approxf_ok u rnd Hu Hr Ht e c x y z C Hn Sp NW Cx Cy Cz) as (th & C' & W & E). fold n Z in E, W.
  set (c' := fun m => c m * th (m mod n)%nat ((m / n) mod n)%nat (m / n / n)%nat).
  assert (Ec : forall i j k, (i < n)%nat -> (j < n)%nat -> c' (i + j * n + k * n * n)%nat = c (i + j * n + k * n * n)%nat * th i j k).
  { intros i j k Hi Hj. unfold c'. destruct (index_split n i j k Hi Hj) as (-> & -> & ->). reflexivity. }
  eexists. exists c', C'. split; [exact E|]. split; [|split].
  - unfold field3. apply rsum_ext. intros k Hk. apply rsum_ext. intros j Hj. apply rsum_ext. intros i Hi. rewrite Ec by assumption. reflexivity.
  - intros m Hl. unfold c'. assert (n <> 0)%nat by (intros ->; lia). assert (W' := W (m mod n)%nat ((m / n) mod n)%nat (m / n / n)%nat). rewrite Nat.div_div in * by assumption.
    specialize (W' ltac:(apply Nat.mod_upper_bound; assumption) ltac:(apply Nat.mod_upper_bound; assumption) ltac:(apply Nat.div_lt_upper_bound; lia)).
    set (t := th _ _ _) in *. replace (c m * t - c m) with (c m * (t - 1)) by ring. rewrite Rabs_mult, Rmult_comm. apply Rmult_le_compat_r; [apply Rabs_pos|]. apply (within_gamma u Hu); assumption.
  - unfold field3. rewrite <- rsum_minus. eapply Rle_trans; [apply rsum_abs|]. rewrite <- rsum_scal_l. apply rsum_le. intros k Hk.
    rewrite <- rsum_minus. eapply Rle_trans; [apply rsum_abs|]. rewrite <- rsum_scal_l. apply rsum_le. intros j Hj.
    rewrite <- rsum_minus. eapply Rle_trans; [apply rsum_abs|]. rewrite <- rsum_scal_l. apply rsum_le. intros i Hi.
    set (a := c _). set (p := phi3 _ _ _ _ _ _ _ _). replace (a * th i j k * p - a * p) with (a * p * (th i j k - 1)) by ring.
    rewrite (Rabs_mult (a * p)), Rmult_comm. apply Rmult_le_compat_r; [apply Rabs_pos|]. apply (within_gamma u Hu); [exact Hm|apply W; assumption].
Qed.
Print Assumptions C73_field.

(** LagrangeElement::eval_basis: small relative error *)
Theorem C73_basis3 : forall u rnd e, let n := le_N e in let Z := le_Z e in rounded_setting u rnd n Z (le_w e) -> INR (15 * n + 2) * u < 1 ->
  (N.of_nat (n * n * n) <= 2 ^ 64)%N ->
  forall i j k x y z, (i < n)%nat -> (j < n)%nat -> (k < n)%nat -> clean n Z x -> clean n Z y -> clean n Z z ->
  exists v, le_eval_basisf rnd e (N.of_nat (i + j * n + k * n * n)) x y z = Ok v /\
    Rabs (v - phi3 n Z i j k x y z) <= gamma u (15 * n + 2) * Rabs (phi3 n Z i j k x y z).
Proof.
  intros u rnd e n Z S Hm Hb i j k x y z Hi Hj Hk Cx Cy Cz. destruct (setting_near _ _ _ _ _ S) as (D & NW).
  assert (Px := setting_point _ _ _ _ _ x S Cx). assert (Py := setting_point _ _ _ _ _ y S Cy). assert (Pz := setting_point _ _ _ _ _ z S Cz). destruct S as (Hu & Hr & _ & Hn & Sp & _).
  assert (Ei : le_ijk e (N.of_nat (i + j * n + k * n * n)) = Ok (i, j, k)).
  { apply (le_ijk_ok {| le_N := n; le_Z := Z; le_w := bw n Z |} i j k); [|assumption|assumption|assumption].
    constructor; cbn [le_N le_Z le_w]; [lia|exact Hb|exact Hn|exact Sp|apply bw_weights, D]. }
  unfold le_eval_basisf. rewrite Ei. cbn [bind]. fold n Z.
  destruct (evalf_ok u rnd Hu Hr n Z (le_w e) x _ i D NW Hi Px) as (t1 & W1 & ->). cbn [bind].
  destruct (evalf_ok u rnd Hu Hr n Z (le_w e) y _ j D NW Hj Py) as (t2 & W2 & ->). cbn [bind].
  destruct (evalf_ok u rnd Hu Hr n Z (le_w e) z _ k D NW Hk Pz) as (t3 & W3 & ->). cbn [bind].
  destruct (rnd_w u Hu rnd Hr (ell n Z i x * t1 * (ell n Z j y * t2))) as (a & Wa & ->).
  destruct (rnd_w u Hu rnd Hr (ell n Z i x * t1 * (ell n Z j y * t2) * a * (ell n Z k z * t3))) as (b & Wb & ->).
  eexists. split; [reflexivity|]. unfold phi3. set (p := ell n Z i x * ell n Z j y * ell n Z k z).
  replace (ell n Z i x * t1 * (ell n Z j y * t2) * a * (ell n Z k z * t3) * b - p) with (p * (t1 * (t2 * (t3 * (a * b))) - 1)) by (unfold p; ring).
  rewrite Rabs_mult, Rmult_comm. apply Rmult_le_compat_r; [apply Rabs_pos|]. apply (within_gamma u Hu); [exact Hm|].
  replace (15 * n + 2)%nat with (5 * n + (5 * n + (5 * n + (1 + 1))))%nat by lia. repeat (apply (within_mul u Hu); [assumption|]). assumption.
Qed.
Print Assumptions C73_basis3.

(** first derivatives.  At a vertex the error is a small multiple of the sum of |l_j'(Z_i) (c_j - c_i)| ... *)
Theorem C73_derivative_at_vertex : forall u rnd N Z w, rounded_setting u rnd N Z w -> INR (7 * N + 2) * u < 1 ->
  forall c i dl p', (i < N)%nat -> (forall j, (j < N)%nat -> derivable_pt_lim (ell N Z j) (Z i) (dl j)) -> derivable_pt_lim (interp N Z c) (Z i) p' ->
  exists v c2, eval_der_interpf rnd N 1 (find_coincident_vertexf rnd N Z (Z i)) Z w (Z i) (fun k => Ok (c k)) = Ok (v, c2) /\
    Rabs (v - p') <= gamma u (7 * N + 2) * rsum N (fun j => Rabs (dl j * (c j - c i))).
Proof.
  intros u rnd N Z w S Hm c i dl p' Hi Hd Hp. destruct (setting_near _ _ _ _ _ S) as (D & NW). destruct S as (Hu & Hr & Ht & Hn & Sp & _).
  assert (C : clean N Z (Z i)) by (left; exists i; auto). rewrite (findf_same u rnd Hu Hr Ht) by assumption. rewrite (find_one N Z (Z i) i Hn Hi).
  2: { rewrite Rminus_diag_eq, Rabs_R0 by reflexivity. apply tol_pos. }
  2: { intros j Hj Ne. apply Sp; assumption. }
  destruct (vertex_bound u rnd Hu Hr N Z w i (fun k => Ok (c k)) c p' D NW Hi ltac:(reflexivity) Hm Hp) as (v & c2 & E & B). exists v, c2. split; [exact E|].
  rewrite (rsum_ext N (fun j => Rabs (dl j * (c j - c i))) (fun j => Rabs (dell N Z j (Z i) * (c j - c i)))); [exact B|].
  intros j Hj. rewrite (der_unique _ _ _ _ (Hd j Hj) (ell_der N Z j (Z i))). reflexivity.
Qed.
Print Assumptions C73_derivative_at_vertex.

(** ... away from the vertices it also contains the error of the interpolant multiplied by sum_k 1/(X - Z_k) *)
Theorem C73_derivative : forall u rnd N Z w, rounded_setting u rnd N Z w -> (0 < N)%nat -> INR (6 * N + 7) * u < 1 ->
  forall c X p', (forall j, (j < N)%nat -> tol <= Rabs (Z j - X)) -> derivable_pt_lim (interp N Z c) X p' ->
  exists v c2, eval_der_interpf rnd N 1 (find_coincident_vertexf rnd N Z X) Z w X (fun k => Ok (c k)) = Ok (v, c2) /\
    Rabs (v - p') <= gamma u (6 * N + 7) * rsum N (fun j => Rabs (ell N Z j X * (interp N Z c X - c j) / (X - Z j)))
      + gamma u (6 * N + 1) * rsum N (fun j => Rabs (c j * ell N Z j X)) *
        (Rabs (rsum N (fun k => / (X - Z k))) + gamma u (6 * N + 7) * rsum N (fun j => Rabs (ell N Z j X / (X - Z j)))).
Proof.
  intros u rnd N Z w S H0 Hm c X p' Hf Hp. destruct (setting_near _ _ _ _ _ S) as (D & NW). destruct S as (Hu & Hr & Ht & Hn & Sp & _).
  assert (C : clean N Z X) by (right; exact Hf). rewrite (findf_same u rnd Hu Hr Ht) by assumption. rewrite find_none by exact Hf.
  apply (free_bound u rnd Hu Hr N Z w X _ (fun k => Ok (c k)) c p' D H0 NW); [lia| |reflexivity|exact Hm|exact Hp].
  intros i Hi Q. specialize (Hf i Hi). replace (Z i - X) with (- (X - Z i)) in Hf by ring. rewrite Q, Ropp_0, Rabs_R0 in Hf. assert (T := tol_pos). lra.
Qed.
Print Assumptions C73_derivative.

(** that factor is real: for the linear element on [-1,1] in doubles, the derivative of the interpolant of 1, 1 at a
    coordinate 5/2^53 inside the right vertex comes out as about -0.4 instead of 0 *)
Theorem C73_derivative_wrong_near_vertex : exists Z X w, Z 0%nat = -1 /\ Z 1%nat = 1 /\ -1 < X < 1 /\ clean 2 Z X /\ rounded_setting u64 binary64 2 Z w /\
  derivable_pt_lim (interp 2 Z (fun _ => 1)) X 0 /\
  exists v c2, eval_der_interpf binary64 2 1 (find_coincident_vertexf binary64 2 Z X) Z w X (fun _ => Ok 1) = Ok (v, c2) /\ v < - (39 / 100).
Proof.
  destruct (weights_lin (fun _ => 0)) as (w & E & W0 & W1). exists Zlin, Xnear, w. split; [reflexivity|]. split; [reflexivity|]. split; [rewrite Xnear_num; lra|].
  split; [exact Xnear_clean|]. split.
  - assert (H := u64_range). split; [lra|]. split; [exact binary64_rounds|]. split; [exact b64_tol|]. split; [reflexivity|]. split; [exact Zlin_sep|]. exists (fun _ => 0). exact E.
  - split.
    + eapply der_ext; [|apply (der_const 1)]. intros t. unfold interp. rewrite (rsum_ext 2 _ (fun i => ell 2 Zlin i t)) by (intros; ring). symmetry. apply ell_sum; [apply separated_distinct, Zlin_sep|lia].
    + destruct (lin_der w W0 W1 _ (fun _ => Ok 1) find_near eq_refl eq_refl) as (c2 & Ed & _). exists (val dv), c2. split; [exact Ed|]. rewrite dv_num. lra.
Qed.
Print Assumptions C73_derivative_wrong_near_vertex.

(** the same for LagrangeElement::eval_grad_approx: the gradient of the constant field 1 has the component -0.4 *)
Theorem C73_gradient_wrong_near_vertex : exists order Z X e, separated (order + 1) Z /\ -1 < X < 1 /\ new_lagrange_elementf binary64 order Z (fun _ => 0) = Ok e /\
  is_grad (field3 (order + 1) Z (fun _ => 1)) X 1 1 (0, 0, 0) /\
  forall C, exists g C', le_eval_grad_approxf binary64 e (fun _ => 1) X 1 1 C = Ok ((g, 0, 0), C') /\ g < - (39 / 100).
Proof.
  destruct (weights_lin (fun _ => 0)) as (w & E & W0 & W1). assert (En : new_lagrange_elementf binary64 1 Zlin (fun _ => 0) = Ok {| le_N := 2; le_Z := Zlin; le_w := w |}).
  { unfold new_lagrange_elementf. cbn [Nat.add]. rewrite E. reflexivity. }
  exists 1%nat, Zlin, Xnear. eexists. split; [exact Zlin_sep|]. split; [rewrite Xnear_num; lra|]. split; [exact En|]. split.
  - assert (D := separated_distinct _ _ Zlin_sep).
    assert (F : forall x y z, 1 = field3 2 Zlin (fun _ => 1) x y z).
    { intros x y z. unfold field3, phi3. symmetry. transitivity (rsum 2 (fun k => ell 2 Zlin k z)); [|apply ell_sum; [exact D|lia]].
      apply rsum_ext. intros k Hk. transitivity (rsum 2 (fun j => ell 2 Zlin j y * ell 2 Zlin k z)); [|rewrite rsum_scal_r, ell_sum by (exact D || lia); ring].
      apply rsum_ext. intros j Hj. rewrite (rsum_ext 2 _ (fun i => ell 2 Zlin i x * (ell 2 Zlin j y * ell 2 Zlin k z))) by (intros; ring).
      rewrite rsum_scal_r, ell_sum by (exact D || lia). ring. }
    cbn [Nat.add]. unfold is_grad. repeat split; (eapply der_ext; [|apply (der_const 1)]; intros t; apply F).
  - intros C. destruct (grad_near (fun _ => 0) _ C En) as (C' & Eg). exists (val dv), C'. split; [exact Eg|]. rewrite dv_num. lra.
Qed.
Print Assumptions C73_gradient_wrong_near_vertex.

(** eval_det_jac is the determinant of the Jacobian entries eval_jac computes, up to rounding *)
Theorem C73_determinant : forall u rnd e px py pz x y z C J C', 0 <= u < 1 -> rounds u rnd -> INR 5 * u < 1 ->
  le_eval_jacf rnd e px py pz x y z C = Ok (J, C') ->
  exists v, le_eval_det_jacf rnd e px py pz x y z C = Ok (v, C') /\
  Rabs (v - det3 (of_row_major 3 J)) <=
  gamma u 5 * (Rabs (J 0%nat) * (Rabs (J 4%nat) * Rabs (J 8%nat) + Rabs (J 5%nat) * Rabs (J 7%nat))
             + Rabs (J 1%nat) * (Rabs (J 3%nat) * Rabs (J 8%nat) + Rabs (J 5%nat) * Rabs (J 6%nat))
             + Rabs (J 2%nat) * (Rabs (J 3%nat) * Rabs (J 7%nat) + Rabs (J 4%nat) * Rabs (J 6%nat))).
Proof.
  intros u rnd e px py pz x y z C J C' Hu Hr H5 E. unfold le_eval_det_jacf. rewrite E. cbn [bind]. eexists. split; [reflexivity|]. apply (det_bound u rnd Hu Hr). exact H5.
Qed.
Print Assumptions C73_determinant.

(** the hypotheses can be met: doubles and the linear element *)
Example C73_nonvacuous : exists w, rounded_setting u64 binary64 2 Zlin w /\ INR (3 * (6 * 2 + 1)) * u64 < 1 /\ clean 2 Zlin Xnear /\ clean 2 Zlin 1 /\ INR 5 * u64 < 1.
Proof.
  destruct (weights_lin (fun _ => 0)) as (w & E & W0 & W1). exists w. split.
  - assert (H := u64_range). split; [lra|]. split; [exact binary64_rounds|]. split; [exact b64_tol|]. split; [reflexivity|]. split; [exact Zlin_sep|]. exists (fun _ => 0). exact E.
  - assert (U : u64 <= / 2 ^ 10).
    { unfold u64. apply Rinv_le_contravar; [apply pow_lt; lra|]. apply Rle_pow; [lra|lia]. }
    split; [simpl; lra|]. split; [exact Xnear_clean|]. split; [left; exists 1%nat; split; [lia|reflexivity]|simpl; lra].
Qed.
