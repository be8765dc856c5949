(** C74: the Complex instantiation of the numerical templates, and the complex-step method. *)
From Coq Require Import List Reals ZArith NArith Arith Lia Lra FunctionalExtensionality.
From Coquelicot Require Import Complex.
Import ListNotations.
Require Import Verif.Base Verif.RBase Verif.RSum Verif.RDer Verif.CSum Verif.CPoly Verif.Spec_Lagrange Verif.Spec_Poly Verif.Spec_Complex
  Verif.CLagrange_Math Verif.CStep Verif.CStep2 Verif.Model_Common Verif.Spec_Common Verif.Proof_Common
  Verif.Model_Lagrange Verif.Lagrange_Math Verif.Proof_Lagrange Verif.Proof_LagElem Verif.Prop_Lagrange
  Verif.Model_Poly Verif.Proof_Poly Verif.Proof_LegElem Verif.Jacobi_Math Verif.Prop_Poly Verif.Model_Points
  Verif.Model_Complex Verif.Proof_CParam Verif.Proof_Complex Verif.Proof_Complex2 Verif.Proof_Complex3 Verif.Proof_Complex4.
Local Close Scope N_scope.
Open Scope R_scope.
Open Scope res_scope.

(** a Real element as an instance of the template class, and the same with its contents complex *)
Definition of_le (e : lagrange_element) : t_element Rnum := Build_t_element Rnum (le_N e) (le_Z e) (le_w e).
Definition cel (e : lagrange_element) : t_element Cnum := Build_t_element Cnum (le_N e) (cv (le_Z e)) (cv (le_w e)).

(** the templates at NumType = Real are the models of the other files *)
Theorem C74_real_instance :
  t_find Rnum = find_coincident_vertex /\ t_weights Rnum = compute_barycentric_weights /\
  t_eval Rnum = eval /\ t_eval_interp Rnum = eval_interp /\ t_eval_der_interp Rnum = eval_der_interp /\
  t_eval_der Rnum = eval_der /\
  (forall order Z w0, t_new_element Rnum order Z w0 = rmap of_le (new_lagrange_element order Z w0)) /\
  (forall e, t_eval_basis Rnum (of_le e) = le_eval_basis e /\ t_eval_grad_basis Rnum (of_le e) = le_eval_grad_basis e /\
     t_eval_approx Rnum (of_le e) = le_eval_approx e /\ t_eval_grad_approx Rnum (of_le e) = le_eval_grad_approx e /\
     t_eval_jac Rnum (of_le e) = le_eval_jac e /\ t_eval_det_jac Rnum (of_le e) = le_eval_det_jac e /\
     t_eval_inv_jac Rnum (of_le e) = le_eval_inv_jac e) /\
  t_jacobi_eval Rnum = jacobi_eval /\ t_jacobi_eval_der Rnum = jacobi_eval_der /\
  t_legendre_eval Rnum = legendre_eval /\ t_legendre_eval_der Rnum = legendre_eval_der /\
  t_legendre_eval_approx Rnum = legendre_eval_approx /\ t_legendre_eval_der_approx Rnum = legendre_eval_der_approx /\
  t_lg_eval_basis Rnum = lg_eval_basis /\ t_lg_eval_grad_basis Rnum = lg_eval_grad_basis /\
  t_lg_eval_approx Rnum = lg_eval_approx /\ t_lg_eval_grad_approx Rnum = lg_eval_grad_approx /\
  t_equispaced_points Rnum = equispaced_points /\ t_chebyshev_points Rnum = chebyshev_points.
Proof.
  repeat match goal with |- _ /\ _ => split end; try reflexivity.
  - intros order Z w0. unfold t_new_element, new_lagrange_element. change (t_weights Rnum) with compute_barycentric_weights.
    destruct (compute_barycentric_weights (order + 1) Z w0); reflexivity.
  - intros e. repeat match goal with |- _ /\ _ => split end; reflexivity.
Qed.
Print Assumptions C74_real_instance.

(** ---- real data: the Complex program does what the Real program does, errors included ---- *)
Lemma g_val a b : rres emb a b -> b = rmap RtoC a.
Proof. destruct a, b; cbn; try contradiction; unfold emb; congruence. Qed.
Lemma g_fun (f : nat -> R) (g : nat -> C) : frel emb f g -> g = cv f.
Proof. intros H. apply functional_extensionality. exact H. Qed.
Lemma g_work f g : frel (rres emb) f g -> g = cvr f.
Proof. intros H. apply functional_extensionality. intros i. apply g_val. apply H. Qed.
Lemma g_vals a b : rres (frel emb) a b -> b = rmap cv a.
Proof. destruct a, b; cbn; try contradiction; [|congruence]. intros H. rewrite (g_fun _ _ H). reflexivity. Qed.
Lemma g_valw a b : rres (prel emb (frel (rres emb))) a b -> b = rmap (with_work RtoC) a.
Proof.
  destruct a as [[u p]|], b as [[v q]|]; cbn; try contradiction; [|congruence]. intros [H1 H2]. cbn in *. unfold with_work.
  rewrite (g_work _ _ H2), H1. reflexivity.
Qed.
Lemma g_funw a b : rres (prel (frel emb) (frel (rres emb))) a b -> b = rmap (with_work cv) a.
Proof.
  destruct a as [[u p]|], b as [[v q]|]; cbn; try contradiction; [|congruence]. intros [H1 H2]. cbn in *. unfold with_work.
  rewrite (g_work _ _ H2), (g_fun _ _ H1). reflexivity.
Qed.
Lemma g_3 a b : prel (prel emb emb) emb a b -> b = RtoC3 a.
Proof. destruct a as [[a1 a2] a3], b as [[b1 b2] b3]. intros [[H1 H2] H3]. cbn in *. unfold emb in *. congruence. Qed.
Lemma g_grad a b : rres (prel (prel emb emb) emb) a b -> b = rmap RtoC3 a.
Proof. destruct a, b; cbn; try contradiction; [|congruence]. intros H. rewrite (g_3 _ _ H). reflexivity. Qed.
Lemma g_gradw a b : rres (prel (prel (prel emb emb) emb) (frel (rres emb))) a b -> b = rmap (with_work RtoC3) a.
Proof.
  destruct a as [[u p]|], b as [[v q]|]; cbn; try contradiction; [|congruence]. intros [H1 H2]. cbn in H1, H2. unfold with_work.
  rewrite (g_work _ _ H2), (g_3 _ _ H1). reflexivity.
Qed.
Lemma emb_cv f : frel emb f (cv f). Proof. intros i. reflexivity. Qed.
Lemma emb_cvr c : frel (rres emb) c (cvr c). Proof. intros i. unfold cvr. destruct (c i); reflexivity. Qed.
Lemma emb_el e : rel_elem Rnum Cnum emb (of_le e) (cel e).
Proof. split; [reflexivity|]. split; apply emb_cv. Qed.

Theorem C74_real_data_1d : forall n Z w c x,
  (t_find Cnum n (cv Z) (RtoC x) = find_coincident_vertex n Z x) /\
  (t_weights Cnum n (cv Z) (cv w) = rmap cv (compute_barycentric_weights n Z w)) /\
  (forall i ic, t_eval Cnum n i ic (cv Z) (cv w) (RtoC x) = rmap RtoC (eval n i ic Z w x)) /\
  (forall ic, t_eval_interp Cnum n ic (cv Z) (cv w) (RtoC x) (cvr c) = rmap RtoC (eval_interp n ic Z w x c)) /\
  (forall m ic, t_eval_der_interp Cnum n m ic (cv Z) (cv w) (RtoC x) (cvr c) =
     rmap (with_work RtoC) (eval_der_interp n m ic Z w x c)) /\
  (forall m i ic, t_eval_der Cnum n m i ic (cv Z) (cv w) (RtoC x) (cvr c) =
     rmap (with_work RtoC) (eval_der n m i ic Z w x c)) /\
  (forall G m k al be, t_jacobi_eval Cnum m al be (RtoC x) = rmap RtoC (jacobi_eval m al be x) /\
     t_jacobi_eval_der Cnum G m k al be (RtoC x) = rmap RtoC (jacobi_eval_der G m k al be x) /\
     t_legendre_eval Cnum m (RtoC x) = rmap RtoC (legendre_eval m x) /\
     t_legendre_eval_der Cnum G m k (RtoC x) = rmap RtoC (legendre_eval_der G m k x) /\
     t_legendre_eval_approx Cnum m (cvr c) (RtoC x) = rmap RtoC (legendre_eval_approx m c x) /\
     t_legendre_eval_der_approx Cnum G m k (cvr c) (RtoC x) = rmap RtoC (legendre_eval_der_approx G m k c x)) /\
  (forall zl zr, t_equispaced_points Cnum n (RtoC zl) (RtoC zr) (cv Z) = rmap cv (equispaced_points n zl zr Z) /\
     t_chebyshev_points Cnum n (RtoC zl) (RtoC zr) (cv Z) = rmap cv (chebyshev_points n zl zr Z)).
Proof.
  intros n Z w c x. assert (HZ := emb_cv Z). assert (HW := emb_cv w). assert (HC := emb_cvr c).
  assert (HX : emb x (RtoC x)) by reflexivity.
  repeat match goal with |- _ /\ _ => split | |- forall _, _ => intro end.
  - symmetry. apply (p_find Rnum Cnum emb emb_rel); assumption.
  - apply g_vals. apply (p_weights Rnum Cnum emb emb_rel); assumption.
  - apply g_val. apply (p_eval Rnum Cnum emb emb_rel); assumption.
  - apply g_val. apply (p_eval_interp Rnum Cnum emb emb_rel); assumption.
  - apply g_valw. apply (p_eval_der_interp Rnum Cnum emb emb_rel); assumption.
  - apply g_valw. apply (p_eval_der Rnum Cnum emb emb_rel); assumption.
  - apply g_val. apply (p_jacobi_eval Rnum Cnum emb emb_rel); assumption.
  - apply g_val. apply (p_jacobi_der Rnum Cnum emb emb_rel); assumption.
  - apply g_val. apply (p_legendre_eval Rnum Cnum emb emb_rel); assumption.
  - apply g_val. apply (p_legendre_der Rnum Cnum emb emb_rel); assumption.
  - apply g_val. apply (p_legendre_approx Rnum Cnum emb emb_rel); assumption.
  - apply g_val. apply (p_legendre_der_approx Rnum Cnum emb emb_rel); assumption.
  - apply g_vals. apply (p_equispaced Rnum Cnum emb emb_rel); try assumption; reflexivity.
  - apply g_vals. apply (p_chebyshev Rnum Cnum emb emb_rel); try assumption; reflexivity.
Qed.
Print Assumptions C74_real_data_1d.

Theorem C74_real_data_element : forall order Z w0,
  (t_new_element Cnum order (cv Z) (cv w0) = rmap cel (new_lagrange_element order Z w0)) /\
  (forall e I c px py pz x y z W, let X := RtoC x in let Y := RtoC y in let T := RtoC z in
     t_eval_basis Cnum (cel e) I X Y T = rmap RtoC (le_eval_basis e I x y z) /\
     t_eval_grad_basis Cnum (cel e) I X Y T (cvr W) = rmap (with_work RtoC3) (le_eval_grad_basis e I x y z W) /\
     t_eval_approx Cnum (cel e) (cv c) X Y T (cvr W) = rmap (with_work RtoC) (le_eval_approx e c x y z W) /\
     t_eval_grad_approx Cnum (cel e) (cv c) X Y T (cvr W) = rmap (with_work RtoC3) (le_eval_grad_approx e c x y z W) /\
     t_eval_jac Cnum (cel e) (cv px) (cv py) (cv pz) X Y T (cvr W) = rmap (with_work cv) (le_eval_jac e px py pz x y z W) /\
     t_eval_det_jac Cnum (cel e) (cv px) (cv py) (cv pz) X Y T (cvr W) = rmap (with_work RtoC) (le_eval_det_jac e px py pz x y z W) /\
     t_eval_inv_jac Cnum (cel e) (cv px) (cv py) (cv pz) X Y T (cvr W) = rmap (with_work cv) (le_eval_inv_jac e px py pz x y z W)) /\
  (forall G I c x y z W, let X := RtoC x in let Y := RtoC y in let T := RtoC z in
     t_lg_eval_basis Cnum order I X Y T = rmap RtoC (lg_eval_basis order I x y z) /\
     t_lg_eval_grad_basis Cnum G order I X Y T = rmap RtoC3 (lg_eval_grad_basis G order I x y z) /\
     t_lg_eval_approx Cnum order (cvr c) X Y T (cvr W) = rmap (with_work RtoC) (lg_eval_approx order c x y z W) /\
     t_lg_eval_grad_approx Cnum G order (cvr c) X Y T (cvr W) = rmap (with_work RtoC3) (lg_eval_grad_approx G order c x y z W)).
Proof.
  intros order Z w0. split; [|split].
  - assert (H := p_new Rnum Cnum emb emb_rel order Z (cv Z) w0 (cv w0) (emb_cv _) (emb_cv _)).
    unfold t_new_element, new_lagrange_element in *. change (t_weights Rnum) with compute_barycentric_weights in H.
    destruct (compute_barycentric_weights (order + 1) Z w0) as [w|e], (t_weights Cnum (order + 1) (cv Z) (cv w0)) as [W|e'];
      cbn [bind rres rmap] in *; try contradiction.
    + destruct H as (_ & _ & H). cbn in H. rewrite (g_fun _ _ H). reflexivity.
    + congruence.
  - intros e I c px py pz x y z W X Y T.
    assert (He := emb_el e). assert (Hc := emb_cv c). assert (Hx := emb_cv px). assert (Hy := emb_cv py). assert (Hz := emb_cv pz).
    assert (HW := emb_cvr W). assert (H1 : emb x X) by reflexivity. assert (H2 : emb y Y) by reflexivity. assert (H3 : emb z T) by reflexivity.
    repeat match goal with |- _ /\ _ => split end.
    + apply g_val. apply (p_basis Rnum Cnum emb emb_rel (of_le e)); assumption.
    + apply g_gradw. apply (p_grad_basis Rnum Cnum emb emb_rel (of_le e)); assumption.
    + apply g_valw. apply (p_approx Rnum Cnum emb emb_rel (of_le e)); assumption.
    + apply g_gradw. apply (p_grad_approx Rnum Cnum emb emb_rel (of_le e)); assumption.
    + apply g_funw. apply (p_jac Rnum Cnum emb emb_rel (of_le e)); assumption.
    + apply g_valw. apply (p_det Rnum Cnum emb emb_rel (of_le e)); assumption.
    + apply g_funw. apply (p_inv Rnum Cnum emb emb_rel (of_le e)); assumption.
  - intros G I c x y z W X Y T. assert (Hc := emb_cvr c).
    assert (HW := emb_cvr W). assert (H1 : emb x X) by reflexivity. assert (H2 : emb y Y) by reflexivity. assert (H3 : emb z T) by reflexivity.
    repeat match goal with |- _ /\ _ => split end.
    + apply g_val. apply (p_lg_basis Rnum Cnum emb emb_rel); assumption.
    + apply g_grad. apply (p_lg_grad_basis Rnum Cnum emb emb_rel); assumption.
    + apply g_valw. apply (p_lg_approx Rnum Cnum emb emb_rel); assumption.
    + apply g_gradw. apply (p_lg_grad_approx Rnum Cnum emb emb_rel); assumption.
Qed.
Print Assumptions C74_real_data_element.

(** ---- complex data: the same identities over C ---- *)
Theorem C74_complex_lagrange : forall N Z w0, cdistinct N Z ->
  exists w, t_weights Cnum N Z w0 = Ok w /\ cweights_of N Z w /\ (forall i, (N <= i)%nat -> w i = w0 i) /\
  forall X ic, (exists k, (k < N)%nat /\ X = Z k /\ ic = N.of_nat k) \/ ((N.of_nat N <= ic)%N /\ forall k, (k < N)%nat -> X <> Z k) ->
    (forall i, (i < N)%nat -> t_eval Cnum N i ic Z w X = Ok (cell N Z i X)) /\
    (forall c, t_eval_interp Cnum N ic Z w X (fun i => Ok (c i)) = Ok (cinterp N Z c X)) /\
    (forall c, (0 < N)%nat -> exists d c2, t_eval_der_interp Cnum N 1 ic Z w X (fun i => Ok (c i)) = Ok (d, c2) /\ is_cder (cinterp N Z c) X d) /\
    (forall i c, (i < N)%nat -> exists d c2, t_eval_der Cnum N 1 i ic Z w X c = Ok (d, c2) /\ is_cder (cell N Z i) X d).
Proof.
  intros N Z w0 D. destruct (c_weights_ok_spec N Z w0 D) as (w & E & W & T). exists w. split; [exact E|]. split; [exact W|]. split; [exact T|].
  intros X ic P0. assert (P : cpoint_ok N Z X ic).
  { destruct P0 as [H|(H1 & H2)]; [left; exact H|]. right. split; [exact H1|]. intros i Hi Q. apply (H2 i Hi).
    replace X with ((X - Z i) + Z i)%C by ring. rewrite Q. ring. }
  split; [intros i Hi; apply c_eval_correct; assumption|]. split; [intros c; apply c_eval_interp_correct; try assumption; reflexivity|]. split.
  - intros c HN. destruct (c_order1 N Z w X (fun i => Ok (c i)) c D W (fun i _ => eq_refl) ic HN P) as (d & c2 & E1 & Hd & _). exists d, c2. split; assumption.
  - intros i c Hi. destruct (c_eval_der1_correct N Z w X ic i c D W Hi P) as (d & c2 & E1 & Hd & _). exists d, c2. split; assumption.
Qed.
Print Assumptions C74_complex_lagrange.
(** the search looks at real parts only *)
Theorem C74_complex_find : forall N Z X, (N.of_nat N < 2 ^ 64)%N -> cseparated N Z -> cclean N Z X ->
  (exists k, (k < N)%nat /\ X = Z k /\ t_find Cnum N Z X = N.of_nat k) \/
  ((N.of_nat N <= t_find Cnum N Z X)%N /\ forall k, (k < N)%nat -> X <> Z k).
Proof.
  intros N Z X HN HS HC. destruct (cfind_point_ok N Z X HN HS HC) as [H|(H1 & H2)]; [left; exact H|right; split; [exact H1|]].
  intros k Hk Q. apply (H2 k Hk). rewrite Q. ring.
Qed.
Print Assumptions C74_complex_find.

(** the Lagrange element with complex vertices, coefficients, points and coordinates *)
Theorem C74_complex_element : forall order Z w0, let n := (order + 1)%nat in
  cseparated n Z -> (N.of_nat (n * n * n) <= 2 ^ 64)%N ->
  exists e, t_new_element Cnum order Z w0 = Ok e /\
  forall x y z, cclean n Z x -> cclean n Z y -> cclean n Z z -> forall W,
    (forall i j k, (i < n)%nat -> (j < n)%nat -> (k < n)%nat -> let I := N.of_nat (i + j * n + k * n * n) in
       t_eval_basis Cnum e I x y z = Ok (cphi3 n Z i j k x y z) /\
       exists g W', t_eval_grad_basis Cnum e I x y z W = Ok (g, W') /\ is_cgrad (cphi3 n Z i j k) x y z g) /\
    (forall c, (exists W', t_eval_approx Cnum e c x y z W = Ok (cfield3 n Z c x y z, W')) /\
       exists g W', t_eval_grad_approx Cnum e c x y z W = Ok (g, W') /\ is_cgrad (cfield3 n Z c) x y z g) /\
    (forall px py pz, exists J W', t_eval_jac Cnum e px py pz x y z W = Ok (J, W') /\
       is_cgrad (cfield3 n Z px) x y z (J 0%nat, J 1%nat, J 2%nat) /\
       is_cgrad (cfield3 n Z py) x y z (J 3%nat, J 4%nat, J 5%nat) /\
       is_cgrad (cfield3 n Z pz) x y z (J 6%nat, J 7%nat, J 8%nat) /\
       value (t_eval_det_jac Cnum e px py pz x y z W) = Ok (cdet3 J) /\
       (cdet3 J <> RtoC 0 -> exists K, value (t_eval_inv_jac Cnum e px py pz x y z W) = Ok K /\ cinverse3 J K) /\
       (cdet3 J = RtoC 0 -> t_eval_inv_jac Cnum e px py pz x y z W = Err DivZero)).
Proof.
  intros order Z w0 n HS HN. destruct (cnew_element_ok order Z w0 HN HS) as (e & E & O & EN & EZ). exists e. split; [exact E|].
  intros x y z Hx Hy Hz W. fold n in EN.
  split; [|split].
  - intros i j k Hi Hj Hk I. split.
    + assert (H := ceval_basis_ok e i j k x y z O). cbv zeta in H. rewrite EN, EZ in H. apply H; assumption.
    + assert (H := cgrad_basis_ok e i j k x y z W O). cbv zeta in H. rewrite EN, EZ in H. apply H; assumption.
  - intros c. split.
    + assert (H := ceval_approx_ok e c x y z W O). cbv zeta in H. rewrite EN, EZ in H. apply H; assumption.
    + assert (H := cgrad_approx_ok e c x y z W O). cbv zeta in H. rewrite EN, EZ in H. apply H; assumption.
  - intros px py pz. assert (H := cjac_ok e px py pz x y z W O). cbv zeta in H. rewrite EN, EZ in H.
    destruct (H Hx Hy Hz) as (gx & gy & gz & W' & EJ & G1 & G2 & G3). clear H.
    exists (t_mk9 Cnum gx gy gz), W'. split; [exact EJ|].
    split; [destruct gx as [[? ?] ?], gy as [[? ?] ?], gz as [[? ?] ?]; exact G1|].
    split; [destruct gx as [[? ?] ?], gy as [[? ?] ?], gz as [[? ?] ?]; exact G2|].
    split; [destruct gx as [[? ?] ?], gy as [[? ?] ?], gz as [[? ?] ?]; exact G3|].
    assert (HD := cdet_jac_ok e px py pz x y z W O). cbv zeta in HD. rewrite EN, EZ in HD.
    destruct (HD Hx Hy Hz _ _ EJ W) as (W2 & ED).
    assert (HI := cinv_jac_ok e px py pz x y z W O). cbv zeta in HI. rewrite EN, EZ in HI.
    destruct (HI Hx Hy Hz _ _ EJ) as (I1 & I2).
    split; [rewrite ED; reflexivity|]. split; [|exact I2].
    intros Hd. destruct (I1 Hd) as (K & W3 & EK & HK). exists K. split; [rewrite EK; reflexivity|exact HK].
Qed.
Print Assumptions C74_complex_element.

(** Legendre and Jacobi polynomials: the Complex instance evaluates the same polynomials (real coefficients) *)
Theorem C74_complex_polynomials : exists (P : nat -> R -> R) (F : nat -> C -> C),
  (forall n x, legendre_eval n x = Ok (P n x)) /\ (forall n X, t_legendre_eval Cnum n X = Ok (F n X)) /\
  (forall n, same_poly (S n) (P n) (F n)) /\
  forall al be, (-1 < al) -> (-1 < be) -> exists (p : nat -> R -> R) (f : nat -> C -> C),
    (forall n x, jacobi_eval n al be x = Ok (p n x)) /\ (forall n X, t_jacobi_eval Cnum n al be X = Ok (f n X)) /\
    (forall n, same_poly (S n) (p n) (f n)) /\
    forall G n k, gamma_like G -> exists d D, (forall x, jacobi_eval_der G n k al be x = Ok (d x)) /\
      (forall X, t_jacobi_eval_der Cnum G n k al be X = Ok (D X)) /\ same_poly (S n) d D.
Proof.
  exists lP, cPn. split; [intros; apply legendre_eval_ok|]. split; [intros; apply leg_same|]. split; [intros; apply leg_same|].
  intros al be Ha Hb. exists (jP al (al + be)), (cJn al be).
  split; [intros; apply jacobi_eval_ok; lra|]. split; [intros n; apply (jac_same al be); lra|]. split; [intros n; apply (jac_same al be); lra|].
  intros G n k HG. exact (jac_der_same G n k al be HG Ha Hb).
Qed.
Print Assumptions C74_complex_polynomials.

Lemma cPn_eq F : (forall n X, t_legendre_eval Cnum n X = Ok (F n X)) -> forall n X, cPn n X = F n X.
Proof. intros H n X. assert (Q := H n X). rewrite (proj1 (leg_same n)) in Q. congruence. Qed.

Theorem C74_complex_legendre : forall G F, gamma_like G -> (forall n X, t_legendre_eval Cnum n X = Ok (F n X)) ->
  (forall n k X, (1 <= k)%nat -> exists d, t_legendre_eval_der Cnum G n k X = Ok d /\ nth_cder k (F n) X d) /\
  (forall N c X, t_legendre_eval_approx Cnum N (fun i => Ok (c i)) X = Ok (csum N (fun i => c i * F i X)%C) /\
     exists d, t_legendre_eval_der_approx Cnum G N 1 (fun i => Ok (c i)) X = Ok d /\ is_cder (fun X => csum N (fun i => c i * F i X)%C) X d) /\
  (forall order c x y z W, let n := (order + 1)%nat in
     (exists W', t_lg_eval_approx Cnum order (fun i => Ok (c i)) x y z W =
        Ok (ctensor_sum n c (fun i => F i x) (fun j => F j y) (fun k => F k z), W')) /\
     exists g W', t_lg_eval_grad_approx Cnum G order (fun i => Ok (c i)) x y z W = Ok (g, W') /\
        is_cgrad (fun x y z => ctensor_sum n c (fun i => F i x) (fun j => F j y) (fun k => F k z)) x y z g).
Proof.
  intros G F HG HF. assert (E := cPn_eq F HF). assert (EF : cPn = F).
  { apply functional_extensionality; intros n. apply functional_extensionality; intros X. apply E. }
  subst F. clear HF E. split; [|split].
  - intros n k X Hk. exists (cDk G k n X). split; [apply leg_der_same; assumption|].
    apply (same_poly_nth k (S n) (S n) (lP n) (cPn n) (lDk k n) (cDk G k n)); [apply leg_same|apply leg_der_same; assumption|].
    intros x. apply lDk_der.
  - intros N c X. split; [apply cleg_approx_ok; reflexivity|].
    exists (csum N (fun i => c i * cDk G 1 i X)%C). split; [apply cleg_der_approx_ok; [exact HG|lia|reflexivity]|].
    apply (cder_sum N (fun i X => c i * cPn i X)%C). intros i _. apply cder_scal. apply cD1_der. exact HG.
  - intros order c x y z W n. change n with (lg_size order).
    assert (Hc : forall i, (i < lg_size order * lg_size order * lg_size order)%nat -> (fun i => Ok (c i)) i = Ok (c i)) by reflexivity.
    split.
    + rewrite (clg_approx_comp G). destruct (clg_grad_comp_ok G order 3 _ c x y z W HG Hc) as (W' & E). exists W'. exact E.
    + unfold t_lg_eval_grad_approx.
      destruct (clg_grad_comp_ok G order 0 _ c x y z W HG Hc) as (W0 & E0). rewrite E0. cbn [bind].
      destruct (clg_grad_comp_ok G order 1 _ c x y z W0 HG Hc) as (W1 & E1). rewrite E1. cbn [bind].
      destruct (clg_grad_comp_ok G order 2 _ c x y z W1 HG Hc) as (W2 & E2). rewrite E2. cbn [bind].
      eexists. exists W2. split; [reflexivity|]. unfold clop. cbn [Nat.eqb].
      apply (ctensor_grad (lg_size order) c cPn x y z (fun i => cDk G 1 i x) (fun i => cDk G 1 i y) (fun i => cDk G 1 i z));
        intros i; apply cD1_der; exact HG.
Qed.
Print Assumptions C74_complex_legendre.

(** ---- the complex-step method ---- *)
(** Lagrange polynomials and interpolants with real vertices and coefficients, at every real [x] (vertices
    included) when the index passed is not that of a vertex *)
Theorem C74_step_lagrange : forall n Z W0 w ic x, distinct n Z -> t_weights Cnum n (cv Z) W0 = Ok w -> (N.of_nat n <= ic)%N ->
  (forall i d, (i < n)%nat -> derivable_pt_lim (ell n Z i) x d -> let prog := t_eval Cnum n i ic (cv Z) w in
     step_of prog x (ell n Z i x) d /\ ((n <= 3)%nat -> exact_step_of prog x d)) /\
  (forall c d, derivable_pt_lim (interp n Z c) x d -> let prog := fun X => t_eval_interp Cnum n ic (cv Z) w X (fun i => Ok (RtoC (c i))) in
     step_of prog x (interp n Z c x) d /\ ((n <= 3)%nat -> exact_step_of prog x d)).
Proof.
  intros n Z W0 w ic x D HW Hic. split.
  - intros i d Hi Hd prog. assert (d = dell n Z i x) as -> by (eapply uniqueness_limite; [exact Hd|apply ell_der]).
    apply (step_eval_ok n Z w W0 i ic x D HW Hi Hic).
  - intros c d Hd. apply (step_interp_ok n Z w W0 c ic x d D HW Hic Hd).
Qed.
Print Assumptions C74_step_lagrange.

(** Lagrange elements: the complex step through eval_approx and eval_basis gives the components that
    eval_grad_approx and eval_grad_basis return, in each direction whose coordinate is [tol] or more from
    every vertex; exactly and for every step size when order <= 2 *)
Theorem C74_step_element : forall order Z w0 W0 e E, let n := (order + 1)%nat in
  new_lagrange_element order Z w0 = Ok e -> t_new_element Cnum order (cv Z) W0 = Ok E ->
  separated n Z -> (N.of_nat (n * n * n) <= 2 ^ 64)%N ->
  let off := fun t => forall i, (i < n)%nat -> tol <= Rabs (Z i - t) in
  let found := fun (prog : C -> C -> C -> res C) x y z v g => let '(gx, gy, gz) := g in
    (off x -> step_of (fun X => prog X (RtoC y) (RtoC z)) x v gx /\
              ((order <= 2)%nat -> exact_step_of (fun X => prog X (RtoC y) (RtoC z)) x gx)) /\
    (off y -> step_of (fun Y => prog (RtoC x) Y (RtoC z)) y v gy /\
              ((order <= 2)%nat -> exact_step_of (fun Y => prog (RtoC x) Y (RtoC z)) y gy)) /\
    (off z -> step_of (fun T => prog (RtoC x) (RtoC y) T) z v gz /\
              ((order <= 2)%nat -> exact_step_of (fun T => prog (RtoC x) (RtoC y) T) z gz)) in
  forall x y z W WC, clean n Z x -> clean n Z y -> clean n Z z ->
  (forall c, exists v g, value (le_eval_approx e c x y z W) = Ok v /\ value (le_eval_grad_approx e c x y z W) = Ok g /\
     is_grad (field3 n Z c) x y z g /\
     found (fun X Y T => value (t_eval_approx Cnum E (cv c) X Y T WC)) x y z v g) /\
  (forall i j k, (i < n)%nat -> (j < n)%nat -> (k < n)%nat -> let I := N.of_nat (i + j * n + k * n * n) in
     exists v g, le_eval_basis e I x y z = Ok v /\ value (le_eval_grad_basis e I x y z W) = Ok g /\
     is_grad (phi3 n Z i j k) x y z g /\
     found (fun X Y T => t_eval_basis Cnum E I X Y T) x y z v g).
Proof.
  intros order Z w0 W0 e E n He HE HS HN off found x y z W WC Cx Cy Cz.
  assert (HC : constructed order Z w0 e) by (split; [exact He|]; split; assumption).
  assert (H3 : (order <= 2 -> n <= 3)%nat) by (unfold n; lia).
  split.
  - intros c. destruct (c_approx order Z w0 e HC c x y z W Cx Cy Cz) as (Wv & Ev).
    destruct (c_grad_approx order Z w0 e HC c x y z W Cx Cy Cz) as (g & Wg & Eg & Hg).
    destruct g as [[gx gy] gz]. exists (field3 n Z c x y z), (gx, gy, gz).
    split; [rewrite Ev; reflexivity|]. split; [rewrite Eg; reflexivity|]. split; [exact Hg|].
    destruct (lag_step order Z w0 W0 e E He HS HN HE c x y z W WC gx gy gz Wg _ Wv Eg Ev Cx Cy Cz) as (A & B & D).
    unfold found. split; [|split]; intros Ho; [destruct (A Ho) as (Q1 & Q2)|destruct (B Ho) as (Q1 & Q2)|destruct (D Ho) as (Q1 & Q2)];
      (split; [exact Q1|intros H; apply Q2, H3, H]).
  - intros i j k Hi Hj Hk I. destruct (c_grad_basis order Z w0 e HC i j k x y z W Hi Hj Hk Cx Cy Cz) as (g & Wg & Eg & Hg).
    destruct g as [[gx gy] gz]. exists (phi3 n Z i j k x y z), (gx, gy, gz).
    split; [apply (c_basis order Z w0 e HC i j k x y z Hi Hj Hk Cx Cy Cz)|]. split; [unfold I; fold n in Eg; rewrite Eg; reflexivity|]. split; [exact Hg|].
    destruct (lag_basis_step order Z w0 W0 e E He HS HN HE i j k x y z W gx gy gz Wg Hi Hj Hk Eg Cx Cy Cz) as (A & B & D).
    unfold found. split; [|split]; intros Ho; [destruct (A Ho) as (Q1 & Q2)|destruct (B Ho) as (Q1 & Q2)|destruct (D Ho) as (Q1 & Q2)];
      (split; [exact Q1|intros H; apply Q2, H3, H]).
Qed.
Print Assumptions C74_step_element.

(** differentiation with respect to the coefficients: exact for every step, at every clean point *)
Theorem C74_step_coefficients : forall order Z W0 E c d x y z h WC, let n := (order + 1)%nat in
  t_new_element Cnum order (cv Z) W0 = Ok E -> separated n Z -> (N.of_nat (n * n * n) <= 2 ^ 64)%N ->
  clean n Z x -> clean n Z y -> clean n Z z ->
  value (t_eval_approx Cnum E (fun i => (c i, h * d i)) (RtoC x) (RtoC y) (RtoC z) WC) =
    Ok (field3 n Z c x y z, h * field3 n Z d x y z).
Proof.
  intros order Z W0 E c d x y z h WC n HE HS HN Cx Cy Cz.
  destruct (lag_coeff_step order Z W0 E HS HN HE c d x y z h WC Cx Cy Cz) as (W1 & E1). rewrite E1. reflexivity.
Qed.
Print Assumptions C74_step_coefficients.

(** Legendre polynomials, series and elements: at every real point *)
Theorem C74_step_legendre : forall G, gamma_like G ->
  (forall n x, exists v d, legendre_eval n x = Ok v /\ legendre_eval_der G n 1 x = Ok d /\ step_of (t_legendre_eval Cnum n) x v d) /\
  (forall order c x y z W WC, exists v gx gy gz,
     value (lg_eval_approx order (fun i => Ok (c i)) x y z W) = Ok v /\
     value (lg_eval_grad_approx G order (fun i => Ok (c i)) x y z W) = Ok (gx, gy, gz) /\
     let prog := fun X Y T => value (t_lg_eval_approx Cnum order (fun i => Ok (RtoC (c i))) X Y T WC) in
     step_of (fun X => prog X (RtoC y) (RtoC z)) x v gx /\
     step_of (fun Y => prog (RtoC x) Y (RtoC z)) y v gy /\
     step_of (fun T => prog (RtoC x) (RtoC y) T) z v gz /\
     ((order <= 2)%nat -> exact_step_of (fun X => prog X (RtoC y) (RtoC z)) x gx /\
       exact_step_of (fun Y => prog (RtoC x) Y (RtoC z)) y gy /\ exact_step_of (fun T => prog (RtoC x) (RtoC y) T) z gz)).
Proof.
  intros G HG. split.
  - intros n x. exists (lP n x), (lDk 1 n x). split; [apply legendre_eval_ok|]. split; [apply leg_der_ok; [exact HG|lia]|].
    apply (step_of_poly _ (S n) (lP n) (cPn n)); [apply leg_same|apply lD1_der|]. intros h _. apply leg_same.
  - intros order c x y z W WC. set (n := lg_size order).
    assert (Hc : forall i, (i < n * n * n)%nat -> (fun i => Ok (c i)) i = Ok (c i)) by reflexivity.
    assert (HcC : forall i, (i < n * n * n)%nat -> (fun i => Ok (RtoC (c i))) i = Ok (cv c i)) by reflexivity.
    exists (lfield n c x y z), (tensor_sum n c (fun i => lDk 1 i x) (fun j => lP j y) (fun k => lP k z)),
      (tensor_sum n c (fun i => lP i x) (fun j => lDk 1 j y) (fun k => lP k z)),
      (tensor_sum n c (fun i => lP i x) (fun j => lP j y) (fun k => lDk 1 k z)).
    split.
    { rewrite (lg_approx_comp G). destruct (lg_grad_comp_ok G order 3 _ c x y z W HG Hc) as (W1 & ->). reflexivity. }
    split.
    { unfold lg_eval_grad_approx.
      destruct (lg_grad_comp_ok G order 0 _ c x y z W HG Hc) as (W0 & ->). cbn [bind].
      destruct (lg_grad_comp_ok G order 1 _ c x y z W0 HG Hc) as (W1 & ->). cbn [bind].
      destruct (lg_grad_comp_ok G order 2 _ c x y z W1 HG Hc) as (W2 & ->). reflexivity. }
    intros prog.
    assert (HP : forall X Y T, prog X Y T = Ok (ctensor_sum n (cv c) (fun i => cPn i X) (fun j => cPn j Y) (fun k => cPn k T))).
    { intros X Y T. unfold prog. rewrite (clg_approx_comp G). destruct (clg_grad_comp_ok G order 3 _ (cv c) X Y T WC HG HcC) as (W1 & E1).
      rewrite E1. reflexivity. }
    assert (HS : forall i, (i < n)%nat -> same_poly n (lP i) (cPn i)).
    { intros i Hi. apply (same_poly_mono (S i)); [lia|]. apply leg_same. }
    assert (HGr := lfield_grad n c x y z).
    destruct (dirs_x n n lP cPn c x y z HS _ _ _ HGr (fun X => prog X (RtoC y) (RtoC z))) as (A1 & A2); [intros; apply HP|].
    destruct (dirs_y n n lP cPn c x y z HS _ _ _ HGr (fun Y => prog (RtoC x) Y (RtoC z))) as (B1 & B2); [intros; apply HP|].
    destruct (dirs_z n n lP cPn c x y z HS _ _ _ HGr (fun T => prog (RtoC x) (RtoC y) T)) as (D1 & D2); [intros; apply HP|].
    split; [exact A1|]. split; [exact B1|]. split; [exact D1|]. intros Ho. assert (n <= 3)%nat by (unfold n, lg_size; lia). auto.
Qed.
Print Assumptions C74_step_legendre.

(** ---- where the complex step fails: coordinates recognised as a vertex ---- *)
Lemma hit_im n Z x h h' i : (N.of_nat n < 2 ^ 64)%N -> (i < n)%nat -> Rabs (Z i - x) < tol ->
  (forall j, (j < n)%nat -> j <> i -> tol <= Rabs (Z j - x)) -> hit_or_same n (cv Z) (x, h) (x, h').
Proof.
  intros HN Hi H1 H2. right. split; [reflexivity|]. rewrite cfind_re.
  change (fun j => Re (cv Z j)) with Z || replace (fun j => Re (cv Z j)) with Z by (apply functional_extensionality; reflexivity).
  change (Re (x, h)) with x. rewrite (C04_unique_hit n Z x i HN Hi H1 H2). lia.
Qed.

(** the imaginary part of a coordinate whose real part is closer than [tol] to one vertex is ignored *)
Theorem C74_step_lost_at_vertices : forall order Z w0 W0 e E, let n := (order + 1)%nat in
  new_lagrange_element order Z w0 = Ok e -> t_new_element Cnum order (cv Z) W0 = Ok E -> (N.of_nat n < 2 ^ 64)%N ->
  forall i x, (i < n)%nat -> Rabs (Z i - x) < tol -> (forall j, (j < n)%nat -> j <> i -> tol <= Rabs (Z j - x)) ->
  forall h c I Y T W,
  (t_eval_approx Cnum E c (x, h) Y T W = t_eval_approx Cnum E c (RtoC x) Y T W /\
   t_eval_approx Cnum E c Y (x, h) T W = t_eval_approx Cnum E c Y (RtoC x) T W /\
   t_eval_approx Cnum E c Y T (x, h) W = t_eval_approx Cnum E c Y T (RtoC x) W) /\
  (t_eval_basis Cnum E I (x, h) Y T = t_eval_basis Cnum E I (RtoC x) Y T /\
   t_eval_basis Cnum E I Y (x, h) T = t_eval_basis Cnum E I Y (RtoC x) T /\
   t_eval_basis Cnum E I Y T (x, h) = t_eval_basis Cnum E I Y T (RtoC x)) /\
  (* with real data nothing is left of the step *)
  (forall c y z W v, value (t_eval_approx Cnum (cel e) (cv c) (x, h) (RtoC y) (RtoC z) (cvr W)) = Ok v -> Im v = 0).
Proof.
  intros order Z w0 W0 e E n He HE HN i x Hi H1 H2 h c I Y T W.
  assert (HH := hit_im n Z x h 0 i HN Hi H1 H2). change (x, 0) with (RtoC x) in HH.
  assert (HS : forall A, hit_or_same n (cv Z) A A) by (intros; left; reflexivity).
  assert (EN : te_N Cnum E = n /\ te_Z Cnum E = cv Z).
  { unfold t_new_element in HE. destruct (t_weights Cnum (order + 1) (cv Z) W0); [|discriminate]. cbn in HE. inversion HE. split; reflexivity. }
  destruct EN as (EN & EZ).
  assert (Ee : le_N e = n /\ le_Z e = Z).
  { unfold new_lagrange_element in He. destruct (compute_barycentric_weights (order + 1) Z w0); [|discriminate]. cbn in He. inversion He. split; reflexivity. }
  destruct Ee as (eN & eZ).
  split; [|split].
  - repeat split; apply hit_approx; rewrite EN, EZ; auto.
  - repeat split; apply hit_basis; rewrite EN, EZ; auto.
  - intros c' y z W' v Hv.
    assert (Q : t_eval_approx Cnum (cel e) (cv c') (x, h) (RtoC y) (RtoC z) (cvr W') =
                t_eval_approx Cnum (cel e) (cv c') (RtoC x) (RtoC y) (RtoC z) (cvr W')).
    { apply hit_approx; cbn [cel te_N te_Z]; rewrite eN, eZ; auto. }
    rewrite Q in Hv. destruct (C74_real_data_element order Z w0) as (_ & HD & _).
    destruct (HD e 0%N c' Z Z Z x y z W') as (_ & _ & HA & _). rewrite HA in Hv.
    destruct (le_eval_approx e c' x y z W') as [[u q]|]; cbn in Hv; [|discriminate]. inversion Hv. reflexivity.
Qed.
Print Assumptions C74_step_lost_at_vertices.

(** the linear element on [-1,1]^3 with the field x, at a vertex: the gradient is (1,0,0), the complex step in
    x returns 0 for every step size *)
Definition lin_Z (i : nat) : R := if Nat.eqb i 0 then -1 else 1.
Definition lin_c (i : nat) : R := if Nat.even i then -1 else 1.
Lemma tol_small : 0 < tol <= 1.
Proof. split; [apply tol_pos|]. unfold tol. apply Rmult_le_reg_r with (2 ^ 52); [apply pow_lt; lra|]. unfold Rdiv. rewrite Rmult_assoc, Rinv_l, Rmult_1_r, Rmult_1_l by (apply pow_nonzero; lra).
  replace (2 ^ 52) with (2 * 2 ^ 51) by (cbn; ring). assert (1 <= 2 ^ 51) by (apply pow_R1_Rle; lra). lra.
Qed.
Lemma lin_sep : separated 2 lin_Z.
Proof.
  assert (T := tol_small). intros i j Hi Hj H. assert (i = 0 \/ i = 1)%nat as [->| ->] by lia; assert (j = 0 \/ j = 1)%nat as [->| ->] by lia; try lia; cbn.
  - rewrite Rabs_left by lra. lra.
  - rewrite Rabs_right by lra. lra.
Qed.
Lemma lin_field x y z : field3 2 lin_Z lin_c x y z = x.
Proof. unfold field3, phi3, ell. cbn [rsum rprod Nat.eqb]. unfold lin_Z, lin_c. cbn [Nat.eqb Nat.even Nat.add Nat.mul]. field. Qed.

Theorem C74_step_lost_witness : exists order Z w0 e c,
  new_lagrange_element order Z w0 = Ok e /\ separated (order + 1) Z /\
  forall y z W, clean (order + 1) Z y -> clean (order + 1) Z z ->
    value (le_eval_grad_approx e c 1 y z W) = Ok (1, 0, 0) /\
    forall h, value (t_eval_approx Cnum (cel e) (cv c) (1, h) (RtoC y) (RtoC z) (cvr W)) = Ok (RtoC 1) /\ Im (RtoC 1) / h = 0.
Proof.
  assert (Hs := lin_sep). assert (T := tol_small).
  destruct (new_element_ok 1 lin_Z (fun _ => 0) ltac:(vm_compute; discriminate) Hs) as (e & He & _).
  exists 1%nat, lin_Z, (fun _ => 0), e, lin_c. split; [exact He|]. split; [exact Hs|]. intros y z W Cy Cz.
  assert (HC : constructed 1 lin_Z (fun _ => 0) e) by (split; [exact He|split; [exact Hs|vm_compute; discriminate]]).
  assert (C1 : clean (1 + 1) lin_Z 1) by (left; exists 1%nat; split; [lia|reflexivity]).
  split.
  - destruct (c_grad_approx 1 lin_Z (fun _ => 0) e HC lin_c 1 y z W C1 Cy Cz) as (g & Wg & Eg & Hg). rewrite Eg. cbn [value]. apply f_equal.
    destruct g as [[gx gy] gz]. destruct Hg as (G1 & G2 & G3).
    assert (gx = 1) as -> by (eapply uniqueness_limite; [exact G1|]; apply (der_ext (fun t => t)); [intros; symmetry; apply lin_field|apply der_id]).
    assert (gy = 0) as -> by (eapply uniqueness_limite; [exact G2|]; apply (der_ext (fun t => 1)); [intros; symmetry; apply lin_field|apply der_const]).
    assert (gz = 0) as -> by (eapply uniqueness_limite; [exact G3|]; apply (der_ext (fun t => 1)); [intros; symmetry; apply lin_field|apply der_const]).
    reflexivity.
  - intros h. split; [|unfold RtoC; cbn; unfold Rdiv; ring].
    destruct (new_lagrange_element 1 lin_Z (fun _ => 0)) as [e'|] eqn:E'; [|discriminate]. inversion He; subst e'.
    assert (Ee : le_N e = 2%nat /\ le_Z e = lin_Z).
    { unfold new_lagrange_element in E'. destruct (compute_barycentric_weights (1 + 1) lin_Z (fun _ => 0)); [|discriminate]. cbn in E'. inversion E'. split; reflexivity. }
    destruct Ee as (eN & eZ).
    assert (Q : t_eval_approx Cnum (cel e) (cv lin_c) (1, h) (RtoC y) (RtoC z) (cvr W) =
                t_eval_approx Cnum (cel e) (cv lin_c) (RtoC 1) (RtoC y) (RtoC z) (cvr W)).
    { apply hit_approx; cbn [cel te_N te_Z]; rewrite ?eN, ?eZ; [|left; reflexivity|left; reflexivity].
      apply (hit_im 2 lin_Z 1 h 0 1); [vm_compute; reflexivity|lia| |].
      - cbn. replace (1 - 1) with 0 by ring. rewrite Rabs_R0. lra.
      - intros j Hj Hne. assert (j = 0)%nat as -> by lia. cbn. rewrite Rabs_left by lra. lra. }
    rewrite Q. destruct (C74_real_data_element 1 lin_Z (fun _ => 0)) as (_ & HD & _).
    destruct (HD e 0%N lin_c lin_Z lin_Z lin_Z 1 y z W) as (_ & _ & HA & _). rewrite HA.
    destruct (c_approx 1 lin_Z (fun _ => 0) e HC lin_c 1 y z W C1 Cy Cz) as (Wv & Ev). rewrite Ev. cbn [rmap with_work value fst snd].
    apply f_equal. apply f_equal. change (1 + 1)%nat with 2%nat. apply lin_field.
Qed.
Print Assumptions C74_step_lost_witness.

Example C74_nonvacuous :
  cseparated 2 (cv lin_Z) /\ cdistinct 2 (cv lin_Z) /\ cclean 2 (cv lin_Z) (0, 5) /\ cclean 2 (cv lin_Z) (RtoC 1) /\
  cdistinct 2 (fun i => (0, INR i)) /\ (* vertices that differ in the imaginary part only *)
  separated 2 lin_Z /\ clean 2 lin_Z 0 /\ (forall i, (i < 2)%nat -> tol <= Rabs (lin_Z i - 0)) /\ Rabs (lin_Z 1 - 1) < tol /\
  (exists E, t_new_element Cnum 1 (cv lin_Z) (fun _ => RtoC 0) = Ok E) /\ gamma_like Gw.
Proof.
  assert (Hs := lin_sep). assert (T := tol_small). assert (Hc := cv_separated 2 lin_Z Hs).
  assert (HO : forall i, (i < 2)%nat -> tol <= Rabs (lin_Z i - 0)).
  { intros i Hi. assert (i = 0 \/ i = 1)%nat as [->| ->] by lia; cbn; [rewrite Rabs_left|rewrite Rabs_right]; lra. }
  split; [exact Hc|]. split; [apply cseparated_distinct; exact Hc|]. split; [apply off_clean; exact HO|]. split; [left; exists 1%nat; split; [lia|reflexivity]|].
  split. { intros i j _ _ H Q. apply H. apply INR_eq. apply (f_equal snd) in Q. exact Q. }
  split; [exact Hs|]. split; [right; exact HO|]. split; [exact HO|]. split; [cbn; replace (1 - 1) with 0 by ring; rewrite Rabs_R0; lra|].
  split; [|exact Gw_gamma]. destruct (cnew_element_ok 1 (cv lin_Z) (fun _ => RtoC 0)) as (E & HE & _); [vm_compute; discriminate|exact Hc|exists E; exact HE].
Qed.
