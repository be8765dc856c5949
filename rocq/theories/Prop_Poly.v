(** Properties C13-C16 (Legendre and Jacobi polynomials, Legendre elements) and C58 (Gauss-Jacobi rules). *)
From Coq Require Import List Reals NArith ZArith Arith Lia Lra.
From Coquelicot Require Import Coquelicot.
Import ListNotations.
Require Import Verif.Base Verif.RBase Verif.RSum Verif.RDer Verif.Poly Verif.Jacobi_Math Verif.Jacobi_Int Verif.Spec_Lagrange
  Verif.Model_Poly Verif.Spec_Poly Verif.Proof_Poly Verif.Proof_Gauss Verif.Model_Gauss Verif.Spec_Gauss Verif.Proof_Gauss2 Verif.Proof_LegElem.
Open Scope R_scope.

(** ** C13 *)
Theorem C13_legendre_values : exists P : nat -> R -> R,
  (forall n x, legendre_eval n x = Ok (P n x)) /\
  (forall n, P n 1 = 1) /\
  (forall n, P n (-1) = (-1) ^ n) /\
  (forall n x, P n (- x) = (-1) ^ n * P n x) /\
  (forall n, degree_exactly n (P n)) /\
  (forall n m, n <> m -> integral (fun x => P n x * P m x) 0) /\
  (forall n, integral (fun x => P n x * P n x) (2 / (2 * INR n + 1))).
Proof.
  exists lP. split; [intros; apply legendre_eval_ok|]. split; [exact lP_at1|]. split.
  { intros n. replace (-1) with (- (1)) at 1 by ring. rewrite lP_parity, lP_at1. ring. }
  split; [intros; apply lP_parity|]. split; [intros n; apply jP_degree; lra|]. split; [exact lP_orth|exact lP_norm].
Qed.
Print Assumptions C13_legendre_values.
Example C13_value : exists P, (forall n x, legendre_eval n x = Ok (P n x)) /\ P 2%nat (1 / 2) = - (1 / 8).
Proof.
  exists lP. split; [intros; apply legendre_eval_ok|]. assert (E := lP_rec 0 (1 / 2)). rewrite lP_1, lP_0 in E. cbn [INR] in E. lra.
Qed.

(** a gamma function exists: non-vacuity of [gamma_like] *)
Definition Gw (x : R) : R := let k := (- up (- x))%Z in rising (x - IZR k) (Z.to_nat k).
Lemma Gw_gamma : gamma_like Gw.
Proof.
  assert (U : forall x, up (- (x + 1)) = (up (- x) - 1)%Z).
  { intros x. symmetry. apply tech_up; rewrite minus_IZR; destruct (archimed (- x)); lra. }
  assert (K : forall x, 0 < x -> (0 <= - up (- x))%Z).
  { intros x Hx. destruct (archimed (- x)) as [_ H]. assert (IZR (up (- x)) < 1) by lra. change 1 with (IZR 1) in H0. apply lt_IZR in H0. lia. }
  split.
  - unfold Gw. replace (up (- (1))) with 0%Z.
    + cbn. unfold rising. reflexivity.
    + apply tech_up; lra.
  - intros x Hx. split.
    + apply Rgt_not_eq. apply rising_pos. rewrite opp_IZR. destruct (archimed (- x)); lra.
    + unfold Gw. rewrite U. specialize (K x Hx).
      replace (- (up (- x) - 1))%Z with (- up (- x) + 1)%Z by lia.
      rewrite Z2Nat.inj_add by lia. rewrite Nat.add_comm. cbn [Z.to_nat Pos.to_nat]. change (Pos.to_nat 1) with 1%nat. cbn [Nat.add].
      rewrite rising_S, plus_IZR.
      replace (x + 1 - (IZR (- up (- x)) + 1)) with (x - IZR (- up (- x))) by ring.
      rewrite (INR_IZR_INZ (Z.to_nat _)), Z2Nat.id by exact K. ring.
Qed.

(** ** C14 *)
Theorem C14_legendre_derivatives : forall G P, gamma_like G -> (forall n x, legendre_eval n x = Ok (P n x)) ->
  (forall n k X, (n, k) <> (0%nat, 0%nat) ->
     exists d, legendre_eval_der G n k X = Ok d /\ nth_der k (P n) X d) /\
  (forall X, legendre_eval_der G 0 0 X = Ok 0 /\ legendre_eval 0 X = Ok 1).
Proof.
  intros G P HG HP.
  assert (E : forall n x, lP n x = P n x) by (intros n x; assert (H := HP n x); rewrite legendre_eval_ok in H; congruence).
  split; [|intros X; split; reflexivity].
  intros n k X Hnk. destruct k as [|k].
  - exists (lP n X). split; [apply leg_der0; [exact HG|]; destruct n; [congruence|lia]|]. symmetry. apply E.
  - exists (lDk (S k) n X). split; [apply leg_der_ok; [exact HG|lia]|].
    apply (nth_der_ext (S k) (lP n)); [apply E|apply lDk_der].
Qed.
Print Assumptions C14_legendre_derivatives.
Example C14_nonvacuous : gamma_like Gw /\ (forall n x, legendre_eval n x = Ok (lP n x)).
Proof. split; [exact Gw_gamma|intros; apply legendre_eval_ok]. Qed.

(** ** C15 *)
Theorem C15_jacobi_values : forall al be, -1 < al -> -1 < be -> exists P : nat -> R -> R,
  (forall n x, jacobi_eval n al be x = Ok (P n x)) /\
  (forall n, P n 1 = rprod n (fun i => (al + 1 + INR i) / (INR i + 1))) /\
  (forall n, -1 < al + be -> degree_exactly n (P n)).
Proof.
  intros al be Ha Hb. exists (jP al (al + be)). split; [intros; apply jacobi_eval_ok; lra|]. split.
  - intros n. rewrite jP_at1. induction n as [|n IH]; [unfold rising; cbn; field|].
    cbn [rprod]. rewrite <- IH, rising_S, fact_S_R. assert (0 <= INR n) by apply pos_INR. field. split; [lra|apply INR_fact_neq_0].
  - intros n H. apply jP_degree. exact H.
Qed.
Print Assumptions C15_jacobi_values.
(** orthogonality for natural exponents *)
Theorem C15_jacobi_orthogonal : forall a b P, (forall n x, jacobi_eval n (INR a) (INR b) x = Ok (P n x)) ->
  forall n m, n <> m -> integral (fun x => (1 - x) ^ a * (1 + x) ^ b * (P n x * P m x)) 0.
Proof.
  intros a b P HP n m H.
  assert (E : forall n x, jN a b n x = P n x).
  { intros k x. assert (X := HP k x). rewrite jacobi_eval_ok in X by (assert (Q := sum_pos a b); lra). unfold jN. congruence. }
  unfold integral. eapply is_RInt_ext; [|exact (jacobi_orth a b n m H)]. intros x _. cbv beta. rewrite !E. reflexivity.
Qed.
Print Assumptions C15_jacobi_orthogonal.
Theorem C15_jacobi_der_symmetric : forall G al P n k X, gamma_like G -> -1 < al -> (1 <= n)%nat ->
  (forall x, jacobi_eval n al al x = Ok (P x)) ->
  exists d, jacobi_eval_der G n k al al X = Ok d /\ nth_der k P X d.
Proof.
  intros G al P n k X HG Ha Hn HP. destruct (jacobi_der_sym G n k al X HG Ha Hn) as (v & E & Hv). exists v. split; [exact E|].
  apply (nth_der_ext k (jP al (al + al) n)); [|exact Hv]. intros t. assert (Q := HP t). rewrite jacobi_eval_ok in Q by lra. congruence.
Qed.
Print Assumptions C15_jacobi_der_symmetric.
(** alpha <> beta: the result v and the derivative d differ by a factor, and agree only where d = 0 *)
Theorem C15_jacobi_der_asymmetric : forall G al be P n k X, gamma_like G -> -1 < al -> -1 < be -> al <> be ->
  (1 <= k)%nat -> (k <= n)%nat -> (forall x, jacobi_eval n al be x = Ok (P x)) ->
  exists v d, jacobi_eval_der G n k al be X = Ok v /\ nth_der k P X d /\
    v * rprod k (fun i => INR n + al + be + 1 + INR i) = d * rprod k (fun i => INR n + 2 * al + 1 + INR i) /\
    (v = d <-> d = 0).
Proof.
  intros G al be P n k X HG Ha Hb Hab Hk Hkn HP.
  destruct (jacobi_der_asym G n k al be X HG Ha Hb Hab Hk Hkn) as (v & d & E & Hd & F). exists v, d. split; [exact E|]. split; [|exact F].
  apply (nth_der_ext k (jP al (al + be) n)); [|exact Hd]. intros t. assert (Q := HP t). rewrite jacobi_eval_ok in Q by lra. congruence.
Qed.
Print Assumptions C15_jacobi_der_asymmetric.
(** concrete witness: n = k = 1, alpha = 0, beta = 1: derivative 3/2, computed 1 *)
Theorem C15_jacobi_der_witness : forall G X, gamma_like G ->
  jacobi_eval_der G 1 1 0 1 X = Ok 1 /\ nth_der 1 (fun x => 3 / 2 * x - 1 / 2) X (3 / 2) /\
  forall x, jacobi_eval 1 0 1 x = Ok (3 / 2 * x - 1 / 2).
Proof.
  intros G X HG. split; [|split].
  - rewrite jacobi_eval_der_val by (try exact HG; try lra; lia). f_equal. cbn [Nat.sub]. rewrite jP_0. unfold rising. cbn. field.
  - exists (fun _ => 3 / 2). split; [|reflexivity]. intros t. eapply der_value; [|apply der_sub; [apply der_scal; apply der_id|apply der_const]]. ring.
  - intros x. rewrite jacobi_eval_ok by lra. rewrite jP_1. f_equal. field.
Qed.
Print Assumptions C15_jacobi_der_witness.
Example C15_nonvacuous : gamma_like Gw /\ forall n x, jacobi_eval n 1 1 x = Ok (jP 1 (1 + 1) n x).
Proof. split; [exact Gw_gamma|]. intros. apply jacobi_eval_ok. lra. Qed.

(** ** C16 *)
Theorem C16_series : forall G P N c X, gamma_like G -> (forall n x, legendre_eval n x = Ok (P n x)) ->
  legendre_eval_approx N (fun i => Ok (c i)) X = Ok (rsum N (fun i => c i * P i X)) /\
  (forall k, (1 <= k)%nat -> exists v, legendre_eval_der_approx G N k (fun i => Ok (c i)) X = Ok v /\
     nth_der k (fun x => rsum N (fun i => c i * P i x)) X v).
Proof.
  intros G P N c X HG HP.
  assert (E : forall n x, lP n x = P n x) by (intros n x; assert (H := HP n x); rewrite legendre_eval_ok in H; congruence).
  split.
  - rewrite (leg_approx_ok N _ c X) by reflexivity. f_equal. apply rsum_ext. intros i _. rewrite E. reflexivity.
  - intros k Hk. rewrite (leg_der_approx_ok G N k _ c X HG Hk) by reflexivity. eexists. split; [reflexivity|].
    apply (nth_der_ext k (fun t => rsum N (fun i => c i * lP i t))); [|apply series_der].
    intros t. apply rsum_ext. intros i _. rewrite E. reflexivity.
Qed.
Print Assumptions C16_series.
Theorem C16_element : forall G P order c x y z, gamma_like G -> (forall n x, legendre_eval n x = Ok (P n x)) ->
  let n := (order + 1)%nat in
  (N.of_nat (n * n * n) <= 2 ^ 64)%N ->
  (* basis functions and their gradients *)
  (forall i j k, (i < n)%nat -> (j < n)%nat -> (k < n)%nat ->
     let I := N.of_nat (i + j * n + k * n * n) in
     lg_eval_basis order I x y z = Ok (P i x * P j y * P k z) /\
     exists g, lg_eval_grad_basis G order I x y z = Ok g /\ is_grad (fun x y z => P i x * P j y * P k z) x y z g) /\
  (* field and gradient, whatever the work array held; only coefficients 0 .. n^3 - 1 are read *)
  (forall C c', (forall i, (i < n * n * n)%nat -> c' i = Ok (c i)) ->
     (exists C', lg_eval_approx order c' x y z C =
        Ok (tensor_sum n c (fun i => P i x) (fun j => P j y) (fun k => P k z), C')) /\
     (exists g C', lg_eval_grad_approx G order c' x y z C = Ok (g, C') /\
        is_grad (fun x y z => tensor_sum n c (fun i => P i x) (fun j => P j y) (fun k => P k z)) x y z g)).
Proof.
  intros G P order c x y z HG HP n Hs.
  assert (E : forall n x, lP n x = P n x) by (intros m t; assert (H := HP m t); rewrite legendre_eval_ok in H; congruence).
  split.
  - intros i j k Hi Hj Hk I. split.
    + rewrite (lg_basis_ok order i j k x y z Hs Hi Hj Hk : lg_eval_basis order I x y z = _). rewrite !E. reflexivity.
    + eexists. split; [apply (lg_grad_basis_ok G order i j k x y z HG Hs Hi Hj Hk)|]. unfold is_grad. repeat split.
      * apply (der_ext (fun t => lP i t * lP j y * lP k z)); [intros; rewrite !E; reflexivity|]. apply der_scal_r, der_scal_r, lD1_der.
      * apply (der_ext (fun t => lP i x * lP j t * lP k z)); [intros; rewrite !E; reflexivity|]. apply der_scal_r, der_scal, lD1_der.
      * apply (der_ext (fun t => lP i x * lP j y * lP k t)); [intros; rewrite !E; reflexivity|]. apply der_scal, lD1_der.
  - assert (ET : forall x y z, lfield n c x y z = tensor_sum n c (fun i => P i x) (fun j => P j y) (fun k => P k z)).
    { intros. unfold lfield, tensor_sum. do 3 (apply rsum_ext; intros ? _). rewrite !E. reflexivity. }
    intros C c' Hc. split.
    + rewrite (lg_approx_comp G). destruct (lg_grad_comp_ok G order 3 c' c x y z C HG Hc) as (C' & ->). exists C'. f_equal. f_equal.
      rewrite <- ET. reflexivity.
    + unfold lg_eval_grad_approx. destruct (lg_grad_comp_ok G order 0 c' c x y z C HG Hc) as (C0 & ->). cbn [bind].
      destruct (lg_grad_comp_ok G order 1 c' c x y z C0 HG Hc) as (C1 & ->). cbn [bind].
      destruct (lg_grad_comp_ok G order 2 c' c x y z C1 HG Hc) as (C2 & ->). cbn [bind].
      eexists. exists C2. split; [reflexivity|]. assert (L := lfield_grad n c x y z). unfold is_grad in *.
      destruct L as (L1 & L2 & L3). repeat split.
      * apply (der_ext (fun t => lfield n c t y z)); [intros; apply ET|exact L1].
      * apply (der_ext (fun t => lfield n c x t z)); [intros; apply ET|exact L2].
      * apply (der_ext (fun t => lfield n c x y t)); [intros; apply ET|exact L3].
Qed.
Print Assumptions C16_element.
Example C16_nonvacuous : (N.of_nat ((7 + 1) * (7 + 1) * (7 + 1)) <= 2 ^ 64)%N.
Proof. vm_compute. discriminate. Qed.

(** ** C58 *)
Theorem C58_gauss_jacobi_exact : forall G stev junk a b n p0 w0, gamma_like G -> (2 <= n)%nat ->
  (forall d e, gj_diag n (INR a) (INR b) junk = Ok d -> gj_subdiag n (INR a) (INR b) junk = Ok e -> stev_contract n d e (stev n d e)) ->
  exists x w, gauss_jacobi G stev junk n (INR a) (INR b) p0 w0 = Ok (x, w) /\
    (forall f, poly_lt (2 * n) f -> exact_on a b n x w f) /\
    (forall j, (j < n)%nat -> 0 < w j) /\
    (forall j, (j < n)%nat -> -1 < x j < 1 /\ jacobi_eval n (INR a) (INR b) (x j) = Ok 0) /\
    (forall j l, (j < n)%nat -> (l < n)%nat -> j <> l -> x j <> x l) /\
    (forall j, (n <= j)%nat -> x j = p0 j /\ w j = w0 j).
Proof. exact gauss_jacobi_exact. Qed.
Print Assumptions C58_gauss_jacobi_exact.

(** one point: the code ignores the exponents; right for Legendre, wrong for e.g. (1-x) and (1-x^2) *)
Lemma int_lin u v : is_RInt (fun t => u + v * t) (-1) 1 (2 * u).
Proof.
  set (F := fun t => u * t + v * t ^ 2 / 2). replace (2 * u) with (F 1 - F (-1)) by (unfold F; field).
  eapply (ftc F).
  - intros t. unfold F. eapply der_value; [|apply der_add; [apply der_scal; apply der_id|apply der_divc; apply der_scal; apply (der_pow 2 (fun t => t)); apply der_id]].
    cbn. field.
  - intros t. apply der_add; [apply der_const|apply der_scal; apply der_id].
Qed.
Lemma int_quad u v q : is_RInt (fun t => u + v * t + q * t ^ 2) (-1) 1 (2 * u + 2 / 3 * q).
Proof.
  set (F := fun t => u * t + v * t ^ 2 / 2 + q * t ^ 3 / 3). replace (2 * u + 2 / 3 * q) with (F 1 - F (-1)) by (unfold F; field).
  eapply (ftc F).
  - intros t. unfold F. eapply der_value; [|apply der_add; [apply der_add; [apply der_scal; apply der_id|apply der_divc; apply der_scal; apply (der_pow 2 (fun t => t)); apply der_id]|
      apply der_divc; apply der_scal; apply (der_pow 3 (fun t => t)); apply der_id]].
    cbn. field.
  - intros t. apply der_add; [apply der_add; [apply der_const|apply der_scal; apply der_id]|apply der_scal; apply (der_pow 2 (fun t => t)); apply der_id].
Qed.
Lemma rint_val (f g : R -> R) (v v' : R) : is_RInt f (-1) 1 v -> (forall t, f t = g t) -> v = v' -> is_RInt g (-1) 1 v'.
Proof. intros H E <-. eapply is_RInt_ext; [|exact H]. intros t _. apply E. Qed.
Theorem C58_one_point : forall G stev junk a b p0 w0,
  exists x w, gauss_jacobi G stev junk 1 (INR a) (INR b) p0 w0 = Ok (x, w) /\ x 0%nat = 0 /\ w 0%nat = 2 /\
    (a = 0%nat -> b = 0%nat -> forall f, poly_lt 2 f -> exact_on a b 1 x w f) /\
    (a = 1%nat -> b = 0%nat -> ~ exact_on a b 1 x w (fun t => t)) /\
    (a = 1%nat -> b = 1%nat -> ~ exact_on a b 1 x w (fun _ => 1)).
Proof.
  intros G stev junk a b p0 w0. eexists. eexists. split; [reflexivity|]. split; [reflexivity|]. split; [reflexivity|]. unfold exact_on. cbn [rsum]. unfold fset. cbn [Nat.eqb].
  split; [|split].
  - intros -> -> f (c & Hf). apply (rint_val _ _ _ _ (int_lin (c 0%nat) (c 1%nat))).
    + intros t. rewrite Hf. cbn [rsum pow]. ring.
    + rewrite Hf. cbn. ring.
  - intros -> -> H. assert (E : is_RInt (fun t => (1 - t) ^ 1 * (1 + t) ^ 0 * t) (-1) 1 (- (2 / 3))).
    { apply (rint_val _ _ _ _ (int_quad 0 1 (-1))); [intros; ring|field]. }
    assert (U1 := is_RInt_unique _ _ _ _ H). assert (U2 := is_RInt_unique _ _ _ _ E). rewrite U1 in U2. lra.
  - intros -> -> H. assert (E : is_RInt (fun t => (1 - t) ^ 1 * (1 + t) ^ 1 * 1) (-1) 1 (4 / 3)).
    { apply (rint_val _ _ _ _ (int_quad 1 0 (-1))); [intros; ring|field]. }
    assert (U1 := is_RInt_unique _ _ _ _ H). assert (U2 := is_RInt_unique _ _ _ _ E). rewrite U1 in U2. lra.
Qed.
Print Assumptions C58_one_point.

(** non-vacuity: the two-point Legendre rule; LAPACK returns -1/sqrt 3, 1/sqrt 3 *)
Definition stev2 (n : nat) (d e : nat -> R) : Z * (nat -> R) * (nat -> R) :=
  (0%Z, (fun j => if Nat.eqb j 0 then - e 0%nat else e 0%nat),
   (fun i => if Nat.eqb i 1 then - / sqrt 2 else / sqrt 2)).
Example C58_nonvacuous : gamma_like Gw /\ forall d e,
  gj_diag 2 (INR 0) (INR 0) (fun _ => 7) = Ok d -> gj_subdiag 2 (INR 0) (INR 0) (fun _ => 7) = Ok e ->
  stev_contract 2 d e (stev2 2 d e).
Proof.
  split; [exact Gw_gamma|]. intros d e Hd _.
  destruct (gj_diag_ok 0 0 2 (fun _ => 7)) as (d' & Ed & D). rewrite Ed in Hd. injection Hd as <-.
  assert (D0 := D 0%nat ltac:(lia)). assert (D1 := D 1%nat ltac:(lia)).
  assert (P0 := gA_pos 0 0 0). assert (P1 := gA_pos 0 0 1).
  assert (B0 : gB (INR 0) (INR 0) 1 = 0) by (unfold gB; cbn; field).
  assert (B1 : gB (INR 0) (INR 0) 2 = 0) by (unfold gB, cB; cbn; field).
  rewrite B0 in D0. rewrite B1 in D1.
  assert (Z0 : d' 0%nat = 0) by (apply (Rmult_eq_reg_l (gA (INR 0) (INR 0) 1)); lra).
  assert (Z1 : d' 1%nat = 0) by (apply (Rmult_eq_reg_l (gA (INR 0) (INR 0) 2)); lra).
  assert (S2 : / sqrt 2 * / sqrt 2 = 1 / 2).
  { rewrite <- Rinv_mult. rewrite sqrt_sqrt by lra. field. }
  set (s := / sqrt 2) in *. unfold stev_contract, stev2. fold s. split; [reflexivity|]. split.
  - intros [|[|j]] Hj [|[|i]] Hi; try lia; unfold tridiag; cbn; rewrite ?Z0, ?Z1; ring.
  - intros [|[|j]] [|[|l]] Hj Hl; try lia; cbn; lra.
Qed.
