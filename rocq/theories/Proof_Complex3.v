(** Jacobi and Legendre polynomials and LegendreElement on complex arguments. *)
From Coq Require Import List Reals NArith Arith Lia Lra.
From Coquelicot Require Import Complex.
Import ListNotations.
Require Import Verif.Base Verif.RBase Verif.RSum Verif.RDer Verif.CSum Verif.CPoly Verif.Spec_Poly Verif.Spec_Complex
  Verif.CStep Verif.CStep2 Verif.Model_Common Verif.Spec_Common Verif.Proof_Common Verif.Model_Poly Verif.Model_Lagrange
  Verif.Jacobi_Math Verif.Proof_Lagrange Verif.Proof_Poly Verif.Proof_LegElem Verif.Model_Complex Verif.Proof_CParam Verif.Proof_Complex.
Local Close Scope N_scope.
Open Scope R_scope.
Open Scope res_scope.

(** value of a result *)
Definition cval (r : res C) : C := match r with Ok v => v | Err _ => RtoC 0 end.
Definition cPn (n : nat) (X : C) : C := cval (t_legendre_eval Cnum n X).
Definition cJn (al be : R) (n : nat) (X : C) : C := cval (t_jacobi_eval Cnum n al be X).

Lemma t_leg_rec_SS m (X : C) : t_leg_rec Cnum (S (S m)) X =
  do i <- rdiv 1 (INR (S m)); do p1 <- t_leg_rec Cnum (S m) X; do p2 <- t_leg_rec Cnum m X;
  Ok (RtoC i * (RtoC (2 * INR (S m) - 1) * X * p1 - RtoC (INR (S m) - 1) * p2))%C.
Proof. reflexivity. Qed.
Lemma t_jac_rec_SS m al be (X : C) : t_jac_rec Cnum (S (S m)) al be X =
  do a <- jac_a al be (S m); do b <- jac_b al be (S m); do p1 <- t_jac_rec Cnum (S m) al be X;
  do c <- jac_c al be (S m); do p2 <- t_jac_rec Cnum m al be X; Ok ((RtoC a * X + RtoC b) * p1 - RtoC c * p2)%C.
Proof. reflexivity. Qed.

Lemma same_poly_sub n f g F G : same_poly n f F -> same_poly n g G ->
  same_poly n (fun x => f x - g x) (fun X => F X - G X)%C.
Proof.
  intros H1 H2. apply (same_poly_ext n (fun x => f x + -1 * g x) _ (fun X => F X + RtoC (-1) * G X)%C).
  - intros; ring.
  - intros X. replace (RtoC (-1)) with (- RtoC 1)%C by (rewrite <- RtoC_opp; f_equal; ring). ring.
  - apply same_poly_add; [exact H1|]. apply same_poly_scal. exact H2.
Qed.

Lemma leg_same n : (forall X, t_legendre_eval Cnum n X = Ok (cPn n X)) /\ same_poly (S n) (lP n) (cPn n).
Proof.
  revert n. apply (two_step (fun n => (forall X, t_legendre_eval Cnum n X = Ok (cPn n X)) /\ same_poly (S n) (lP n) (cPn n))).
  - split; [reflexivity|]. apply (same_poly_ext 1 (fun _ => 1) _ (fun _ => RtoC 1)).
    + intros. symmetry. apply lP_0.
    + reflexivity.
    + apply same_poly_const. lia.
  - assert (E : forall X, t_legendre_eval Cnum 1 X = Ok X).
    { intros X. unfold t_legendre_eval. rewrite t_leg_rec_SS. rewrite rdiv_ok by (cbn; lra).
      change (t_leg_rec Cnum 1 X) with (Ok (RtoC 1)). change (t_leg_rec Cnum 0 X) with (Ok (RtoC 0)). cbn [bind INR]. uc. apply (f_equal (@Ok C)).
      replace (1 / 1)%R with 1%R by field. replace (2 * 1 - 1)%R with 1%R by ring. replace (1 - 1)%R with 0%R by ring. ring. }
    assert (F : forall X, cPn 1 X = X) by (intros; unfold cPn; rewrite E; reflexivity).
    split; [intros; rewrite E, F; reflexivity|].
    apply (same_poly_ext 2 (fun x => x * 1) _ (fun X => X * RtoC 1)%C).
    + intros. rewrite lP_1. ring.
    + intros X. rewrite F. ring.
    + apply (same_poly_mulX 1 (fun _ => 1) (fun _ => RtoC 1)). apply same_poly_const. lia.
  - intros n (E0 & S0) (E1 & S1).
    assert (Hp : (0 < INR n + 2)%R) by (generalize (pos_INR n); lra).
    assert (HS : (INR (S (S n)) = INR n + 2)%R) by (rewrite !S_INR; ring).
    assert (E : forall X, t_legendre_eval Cnum (S (S n)) X =
       Ok (RtoC (1 / (INR n + 2)) * (RtoC (2 * (INR n + 2) - 1) * X * cPn (S n) X - RtoC (INR n + 2 - 1) * cPn n X))%C).
    { intros X. unfold t_legendre_eval. rewrite t_leg_rec_SS, HS. rewrite rdiv_ok by lra. cbn [bind].
      assert (A := E1 X). assert (B := E0 X). unfold t_legendre_eval in A, B.
      uci A. uci B. uc. rewrite A. cbn [bind]. rewrite B. reflexivity. }
    split; [intros X; unfold cPn at 1; rewrite E; reflexivity|].
    apply (same_poly_ext (S (S (S n)))
       (fun x => 1 / (INR n + 2) * ((2 * (INR n + 2) - 1) * (x * lP (S n) x) - (INR n + 2 - 1) * lP n x))%R _
       (fun X => RtoC (1 / (INR n + 2)) * (RtoC (2 * (INR n + 2) - 1) * (X * cPn (S n) X) - RtoC (INR n + 2 - 1) * cPn n X))%C).
    + intros x. apply (Rmult_eq_reg_l (INR n + 2)); [|lra]. rewrite lP_rec. field. lra.
    + intros X. unfold cPn at 3. rewrite E. cbn [cval]. ring.
    + apply same_poly_scal. apply same_poly_sub.
      * apply same_poly_scal. apply same_poly_mulX. exact S1.
      * apply same_poly_scal. apply (same_poly_mono (S n)); [lia|exact S0].
Qed.

(** Jacobi: wherever the real recurrence succeeds *)
Lemma jac_same al be : (-2 < al + be)%R -> forall n,
  (forall X, t_jacobi_eval Cnum n al be X = Ok (cJn al be n X)) /\ same_poly (S n) (jP al (al + be) n) (cJn al be n).
Proof.
  intros Hs. set (q := fun m X => cval (t_jac_rec Cnum m al be X)).
  assert (P : forall m, exists f, (forall x, jac_rec m al be x = Ok (f x)) /\ (forall X, t_jac_rec Cnum m al be X = Ok (q m X)) /\
     same_poly m f (q m)).
  { apply (two_step (fun m => exists f, (forall x, jac_rec m al be x = Ok (f x)) /\ (forall X, t_jac_rec Cnum m al be X = Ok (q m X)) /\
     same_poly m f (q m))).
    - exists (fun _ => 0). split; [reflexivity|]. split; [reflexivity|]. exists (fun _ => 0). split; reflexivity.
    - exists (fun _ => 1). split; [reflexivity|]. split; [reflexivity|].
      apply (same_poly_ext 1 (fun _ => 1) _ (fun _ => RtoC 1)); [reflexivity|reflexivity|]. apply same_poly_const. lia.
    - intros m (f0 & A0 & E0 & S0) (f1 & A1 & E1 & S1). exists (jP al (al + be) (S m)).
      assert (A2 : forall x, jac_rec (S (S m)) al be x = Ok (jP al (al + be) (S m) x)) by (intros x; apply (jacobi_eval_ok al be x Hs (S m))).
      split; [exact A2|].
      destruct (jac_a al be (S m)) as [a|ea] eqn:Ea; [|specialize (A2 0); rewrite jac_rec_SS, Ea in A2; discriminate].
      destruct (jac_b al be (S m)) as [b|eb] eqn:Eb; [|specialize (A2 0); rewrite jac_rec_SS, Ea, Eb in A2; discriminate].
      destruct (jac_c al be (S m)) as [c|ec] eqn:Ec; [|specialize (A2 0); rewrite jac_rec_SS, Ea, Eb in A2; cbn [bind] in A2; rewrite A1 in A2; cbn [bind] in A2; rewrite Ec in A2; discriminate].
      assert (E : forall X, t_jac_rec Cnum (S (S m)) al be X = Ok ((RtoC a * X + RtoC b) * q (S m) X - RtoC c * q m X)%C).
      { intros X. rewrite t_jac_rec_SS, Ea, Eb. cbn [bind]. assert (U := E1 X). assert (V := E0 X). uci U. uci V. uc.
        rewrite U. cbn [bind]. rewrite Ec. cbn [bind]. rewrite V. reflexivity. }
      split; [intros X; unfold q at 1; rewrite E; reflexivity|].
      apply (same_poly_ext (S (S m)) (fun x => (a * (x * f1 x) + b * f1 x) - c * f0 x)%R _
         (fun X => (RtoC a * (X * q (S m) X) + RtoC b * q (S m) X) - RtoC c * q m X)%C).
      + intros x. assert (A := A2 x). rewrite jac_rec_SS, Ea, Eb in A. cbn [bind] in A. rewrite A1 in A. cbn [bind] in A.
        rewrite Ec in A. cbn [bind] in A. rewrite A0 in A. cbn [bind] in A. inversion A. ring.
      + intros X. unfold q at 4. rewrite E. cbn [cval]. ring.
      + apply same_poly_sub; [|apply same_poly_scal; apply (same_poly_mono m); [lia|exact S0]].
        apply same_poly_add; apply same_poly_scal; [apply same_poly_mulX; exact S1|apply (same_poly_mono (S m)); [lia|exact S1]]. }
  intros n. destruct (P (S n)) as (f & A & E & S'). split; [exact E|].
  apply (same_poly_ext (S n) f _ (q (S n)) _); [|reflexivity|exact S'].
  intros x. assert (B := jacobi_eval_ok al be x Hs n). unfold jacobi_eval in B. rewrite A in B. congruence.
Qed.

(** derivatives: whenever the real routine succeeds everywhere *)
Lemma jac_der_same G n k al be : gamma_like G -> (-1 < al)%R -> (-1 < be)%R ->
  exists f F, (forall x, jacobi_eval_der G n k al be x = Ok (f x)) /\
    (forall X, t_jacobi_eval_der Cnum G n k al be X = Ok (F X)) /\ same_poly (S n) f F.
Proof.
  intros HG Ha Hb. unfold t_jacobi_eval_der. destruct (Nat.eqb n 0 || Nat.ltb n k)%bool eqn:Q.
  - exists (fun _ => 0), (fun _ => RtoC 0). split; [intros; unfold jacobi_eval_der; rewrite Q; reflexivity|].
    split; [reflexivity|apply same_poly_zero].
  - apply Bool.orb_false_iff in Q. destruct Q as (Q1 & Q2). apply Nat.eqb_neq in Q1. apply Nat.ltb_ge in Q2.
    assert (Hk : (0 <= INR k)%R) by apply pos_INR. assert (Hn : (1 <= INR n)%R) by (apply (le_INR 1); lia).
    destruct (jac_same (al + INR k) (be + INR k) ltac:(lra) (n - k)) as (E & S').
    set (th := (INR n + (al + al) + 1)%R). set (u := ((1 / 2) ^ k * G (th + INR k))%R).
    assert (HGt : (G th <> 0)%R) by (apply HG; unfold th; lra).
    exists (fun x => 1 / G th * (u * jP (al + INR k) (al + INR k + (be + INR k)) (n - k) x))%R,
           (fun X => RtoC (1 / G th) * (RtoC u * cJn (al + INR k) (be + INR k) (n - k) X))%C.
    split; [|split].
    + intros x. unfold jacobi_eval_der. replace (Nat.eqb n 0) with false by (symmetry; apply Nat.eqb_neq; exact Q1).
      replace (Nat.ltb n k) with false by (symmetry; apply Nat.ltb_ge; exact Q2). cbn [orb]. cbv zeta.
      rewrite jacobi_eval_ok by lra. cbn [bind]. fold th. rewrite rdiv_ok by exact HGt. f_equal. unfold u. field. exact HGt.
    + intros X. cbv zeta. fold th. fold u. assert (U := E X). uci U. uc. rewrite U. cbn [bind].
      rewrite cdiv_ok by (intros W; apply RtoC_inj in W; contradiction). f_equal.
      replace (RtoC (1 / G th)) with (/ RtoC (G th))%C.
      * unfold Cdiv. ring.
      * rewrite RtoC_div by exact HGt. unfold Cdiv. ring.
    + apply same_poly_scal, same_poly_scal. apply (same_poly_mono (S (n - k))); [lia|exact S'].
Qed.

(** ---- series and LegendreElement ---- *)
Definition cDk (G : R -> R) (k n : nat) (X : C) : C := cval (t_legendre_eval_der Cnum G n k X).
Lemma leg_der_same G n k : gamma_like G -> (1 <= k)%nat ->
  (forall X, t_legendre_eval_der Cnum G n k X = Ok (cDk G k n X)) /\ same_poly (S n) (lDk k n) (cDk G k n).
Proof.
  intros HG Hk. destruct (jac_der_same G n k 0 0 HG ltac:(lra) ltac:(lra)) as (f & F & H1 & H2 & H3).
  assert (E : forall X, cDk G k n X = F X).
  { intros X. unfold cDk, t_legendre_eval_der. assert (U := H2 X). uci U. uc. rewrite U. reflexivity. }
  split.
  - intros X. rewrite E. apply H2.
  - apply (same_poly_ext (S n) f _ F _); [|intros; symmetry; apply E|exact H3].
    intros x. assert (A := H1 x). assert (B := leg_der_ok G n k x HG Hk). unfold legendre_eval_der in B. congruence.
Qed.

Open Scope C_scope.
Lemma cleg_approx_ok N c c' X : (forall i, (i < N)%nat -> c i = Ok (c' i)) ->
  t_legendre_eval_approx Cnum N c X = Ok (csum N (fun i => c' i * cPn i X)).
Proof.
  intros Hc. unfold t_legendre_eval_approx. uc.
  apply (loop_closed (fun m => csum m (fun i => c' i * cPn i X))). intros j Hj. rewrite Hc by exact Hj. cbn [bind].
  assert (U := proj1 (leg_same j) X). uci U. rewrite U. reflexivity.
Qed.
Lemma cleg_der_approx_ok G N k c c' X : gamma_like G -> (1 <= k)%nat -> (forall i, (i < N)%nat -> c i = Ok (c' i)) ->
  t_legendre_eval_der_approx Cnum G N k c X = Ok (csum N (fun i => c' i * cDk G k i X)).
Proof.
  intros HG Hk Hc. unfold t_legendre_eval_der_approx. uc.
  apply (loop_closed (fun m => csum m (fun i => c' i * cDk G k i X))). intros j Hj. rewrite Hc by exact Hj. cbn [bind].
  assert (U := proj1 (leg_der_same G j k HG Hk) X). uci U. rewrite U. reflexivity.
Qed.

Definition clop G (d : bool) (i : nat) (X : C) : C := if d then cDk G 1 i X else cPn i X.
Lemma clg_collapse_ok G d N c c' X : gamma_like G -> (forall i, (i < N)%nat -> c i = Ok (c' i)) ->
  t_lg_collapse Cnum G d N c X = Ok (csum N (fun i => c' i * clop G d i X)).
Proof.
  intros HG Hc. unfold t_lg_collapse, clop. destruct d; [apply cleg_der_approx_ok; try assumption; lia|apply cleg_approx_ok; exact Hc].
Qed.

Lemma clg_grad_comp_ok G order l c c' x y z W : gamma_like G -> let n := lg_size order in
  (forall i, (i < n * n * n)%nat -> c i = Ok (c' i)) ->
  exists W', t_lg_grad_comp Cnum G order l c x y z W =
    Ok (ctensor_sum n c' (fun i => clop G (Nat.eqb l 0) i x) (fun j => clop G (Nat.eqb l 1) j y) (fun k => clop G (Nat.eqb l 2) k z), W').
Proof.
  intros HG n Hc. unfold t_lg_grad_comp. fold n. cbv zeta.
  set (ax := fun k j => csum n (fun i => c' (j * n + k * n * n + i)%nat * clop G (Nat.eqb l 0) i x)).
  set (ay := fun k => csum n (fun j => ax k j * clop G (Nat.eqb l 1) j y)).
  edestruct (loop_inv (fun m (W : nat -> res C) => forall k, (k < m)%nat -> W (n + k)%nat = Ok (ay k)) n)
    as (W1 & E & H).
  3: { rewrite E. cbn [bind].
       rewrite (clg_collapse_ok G (Nat.eqb l 2) n (@shift (res Cnum) n W1) ay z HG).
       - cbn [bind]. eexists. f_equal. f_equal. unfold ctensor_sum. apply csum_ext. intros k Hk.
         unfold ay. rewrite <- csum_scal_r. apply csum_ext. intros j Hj.
         unfold ax. rewrite <- !csum_scal_r. apply csum_ext. intros i Hi.
         replace (i + j * n + k * n * n)%nat with (j * n + k * n * n + i)%nat by lia. ring.
       - intros k Hk. unfold shift. apply H. exact Hk. }
  - intros; lia.
  - intros k W0 Hk H0.
    edestruct (loop_inv (fun m (W : nat -> res C) => (forall j, (j < m)%nat -> W j = Ok (ax k j)) /\
         (forall i, (n <= i)%nat -> W i = W0 i)) n) as (W2 & E & H1 & H2).
    3: { rewrite E. cbn [bind].
         rewrite (clg_collapse_ok G (Nat.eqb l 1) n W2 (ax k) y HG H1). cbn [bind].
         eexists. split; [reflexivity|]. intros k' Hk'.
         destruct (Nat.eq_dec k' k) as [->|Ne].
         - rewrite fset_eq. reflexivity.
         - rewrite fset_neq by lia. rewrite H2 by lia. apply H0. lia. }
    + split; [intros; lia|auto].
    + intros j W2 Hj (H1 & H2).
      rewrite (clg_collapse_ok G (Nat.eqb l 0) n (@shift (res Cnum) (j * n + k * n * n) c) (fun i => c' (j * n + k * n * n + i)%nat) x HG).
      2: { intros i Hi. unfold shift. apply Hc.
           assert ((j * n + n <= n * n)%nat) by nia. assert ((k * n * n + n * n <= n * n * n)%nat) by nia. lia. }
      cbn [bind]. eexists. split; [reflexivity|]. split.
      * intros j' Hj'. destruct (Nat.eq_dec j' j) as [->|Ne]; [apply fset_eq|].
        rewrite fset_neq by exact Ne. apply H1. lia.
      * intros i Hi. rewrite fset_neq by lia. apply H2. exact Hi.
Qed.

Lemma clg_approx_comp G order c x y z W : t_lg_eval_approx Cnum order c x y z W = t_lg_grad_comp Cnum G order 3 c x y z W.
Proof. reflexivity. Qed.

Lemma cD1_der G n X : gamma_like G -> is_cder (cPn n) X (cDk G 1 n X).
Proof.
  intros HG. apply (same_poly_cder (S n) (S n) (lP n) _ (lDk 1 n)); [apply leg_same|apply leg_der_same; [exact HG|lia]|].
  intros x. apply lD1_der.
Qed.

Lemma cder_scal_r' a f x d : is_cder f x d -> is_cder (fun t => f t * a) x (d * a).
Proof.
  intros H. replace (d * a) with (a * d) by ring.
  apply (cder_ext (fun t => a * f t)); [intros; ring|]. apply cder_scal. exact H.
Qed.

(** partial derivatives of a tensor-product field *)
Lemma ctensor_grad n c (f : nat -> C -> C) x y z dx dy dz :
  (forall i, is_cder (f i) x (dx i)) -> (forall i, is_cder (f i) y (dy i)) -> (forall i, is_cder (f i) z (dz i)) ->
  is_cgrad (fun x y z => ctensor_sum n c (fun i => f i x) (fun j => f j y) (fun k => f k z)) x y z
    (ctensor_sum n c dx (fun j => f j y) (fun k => f k z),
     ctensor_sum n c (fun i => f i x) dy (fun k => f k z),
     ctensor_sum n c (fun i => f i x) (fun j => f j y) dz).
Proof.
  intros Dx Dy Dz. unfold is_cgrad, ctensor_sum. repeat split.
  - apply (cder_sum n (fun k t => csum n (fun j => csum n (fun i => c (i + j * n + k * n * n)%nat *
       (f i t * f j y * f k z))))). intros k _.
    apply (cder_sum n (fun j t => csum n (fun i => c (i + j * n + k * n * n)%nat * (f i t * f j y * f k z)))). intros j _.
    apply (cder_sum n (fun i t => c (i + j * n + k * n * n)%nat * (f i t * f j y * f k z))). intros i _.
    apply cder_scal. apply (cder_scal_r' (f k z)). apply (cder_scal_r' (f j y)). apply Dx.
  - apply (cder_sum n (fun k t => csum n (fun j => csum n (fun i => c (i + j * n + k * n * n)%nat *
       (f i x * f j t * f k z))))). intros k _.
    apply (cder_sum n (fun j t => csum n (fun i => c (i + j * n + k * n * n)%nat * (f i x * f j t * f k z)))). intros j _.
    apply (cder_sum n (fun i t => c (i + j * n + k * n * n)%nat * (f i x * f j t * f k z))). intros i _.
    apply cder_scal. apply (cder_scal_r' (f k z)). apply (cder_scal (f i x)). apply Dy.
  - apply (cder_sum n (fun k t => csum n (fun j => csum n (fun i => c (i + j * n + k * n * n)%nat *
       (f i x * f j y * f k t))))). intros k _.
    apply (cder_sum n (fun j t => csum n (fun i => c (i + j * n + k * n * n)%nat * (f i x * f j y * f k t)))). intros j _.
    apply (cder_sum n (fun i t => c (i + j * n + k * n * n)%nat * (f i x * f j y * f k t))). intros i _.
    apply cder_scal. apply (cder_scal (f i x * f j y)). apply Dz.
Qed.
