(** Orthogonality of the Jacobi polynomials for natural exponents, and the zeroth moment.
    Library file: it models nothing in /repo. *)
From Coq Require Import Reals Arith Lia Lra.
From Coquelicot Require Import Coquelicot.
Require Import Verif.RSum Verif.RDer Verif.Jacobi_Math.
Open Scope R_scope.

(** fundamental theorem of calculus on [-1,1], with derivatives as limits *)
Lemma ftc (F f f' : R -> R) : (forall x, derivable_pt_lim F x (f x)) -> (forall x, derivable_pt_lim f x (f' x)) ->
  is_RInt f (-1) 1 (F 1 - F (-1)).
Proof.
  intros HF Hf. apply (is_RInt_derive F f).
  - intros x _. apply is_derive_Reals. apply HF.
  - intros x _. apply continuity_pt_filterlim. apply derivable_continuous_pt. exists (f' x). apply Hf.
Qed.

(** the weight (1-x)^a (1+x)^b *)
Definition wt (a b : nat) (x : R) : R := (1 - x) ^ a * (1 + x) ^ b.
Definition dwt (a b : nat) (x : R) : R :=
  - INR a * (1 - x) ^ pred a * (1 + x) ^ b + (1 - x) ^ a * (INR b * (1 + x) ^ pred b).
Lemma wt_der a b x : derivable_pt_lim (wt a b) x (dwt a b x).
Proof.
  unfold wt, dwt. eapply der_value; [|apply der_mul;
    [apply (der_pow a (fun x => 1 - x)); apply der_sub; [apply der_const|apply der_id]
    |apply (der_pow b (fun x => 1 + x)); apply der_add; [apply der_const|apply der_id]]].
  cbv beta. ring.
Qed.
Lemma wt_S_der a b x : derivable_pt_lim (wt (S a) (S b)) x ((INR b - INR a - (INR a + INR b + 2) * x) * wt a b x).
Proof.
  eapply der_value; [|apply wt_der]. unfold dwt, wt. rewrite !S_INR. cbn [pred pow]. ring.
Qed.
Lemma wt_S a b x : wt (S a) (S b) x = (1 - x * x) * wt a b x.
Proof. unfold wt. cbn [pow]. ring. Qed.
Lemma wt_S_ends a b : wt (S a) (S b) 1 = 0 /\ wt (S a) (S b) (-1) = 0.
Proof. rewrite !wt_S. split; ring. Qed.

(** the Jacobi polynomial with natural exponents *)
Definition jN (a b n : nat) (x : R) : R := jP (INR a) (INR a + INR b) n x.
Definition jN1 (a b n : nat) (x : R) : R := jD1 (INR a) (INR a + INR b) n x.
Definition jN2 (a b n : nat) (x : R) : R := jD2 (INR a) (INR a + INR b) n x.
Lemma jN_der a b n x : derivable_pt_lim (jN a b n) x (jN1 a b n x).
Proof. apply jP_D1. Qed.
Lemma jN1_der a b n x : derivable_pt_lim (jN1 a b n) x (jN2 a b n x).
Proof. apply jP_D2. Qed.

Theorem jacobi_orth a b n m : n <> m -> is_RInt (fun x => wt a b x * (jN a b n x * jN a b m x)) (-1) 1 0.
Proof.
  intros Hnm. set (lam := fun n => INR n * (INR n + (INR a + INR b) + 1)).
  assert (Hl : lam n - lam m <> 0).
  { unfold lam. replace (INR n * (INR n + (INR a + INR b) + 1) - INR m * (INR m + (INR a + INR b) + 1))
      with ((INR n - INR m) * (INR n + INR m + INR a + INR b + 1)) by ring.
    apply Rmult_integral_contrapositive_currified.
    - intros E. apply Hnm. apply INR_eq. lra.
    - assert (P := pos_INR). generalize (P n) (P m) (P a) (P b). lra. }
  set (F := fun x => / (lam n - lam m) * (wt (S a) (S b) x * (jN a b n x * jN1 a b m x - jN1 a b n x * jN a b m x))).
  replace 0 with (F 1 - F (-1)).
  2: { unfold F. destruct (wt_S_ends a b) as (-> & ->). ring. }
  eapply (ftc F).
  - intros x. unfold F. eapply der_value; [|apply der_scal; apply der_mul; [apply wt_S_der|
      apply der_sub; apply der_mul; [apply jN_der|apply jN1_der|apply jN1_der|apply jN_der]]].
    cbv beta. rewrite wt_S.
    assert (On := jP_ode (INR a) (INR b) n x). assert (Om := jP_ode (INR a) (INR b) m x).
    fold (jN a b n x) (jN1 a b n x) (jN2 a b n x) in On. fold (jN a b m x) (jN1 a b m x) (jN2 a b m x) in Om.
    fold (lam n) in On. fold (lam m) in Om.
    apply (Rmult_eq_reg_l (lam n - lam m)); [|exact Hl].
    rewrite <- Rmult_assoc, Rinv_r by exact Hl.
    transitivity (wt a b x * (jN a b n x * ((1 - x * x) * jN2 a b m x + (INR b - INR a - (INR a + INR b + 2) * x) * jN1 a b m x + lam m * jN a b m x)
       - jN a b m x * ((1 - x * x) * jN2 a b n x + (INR b - INR a - (INR a + INR b + 2) * x) * jN1 a b n x + lam n * jN a b n x)
       + (lam n - lam m) * (jN a b n x * jN a b m x))); [ring|].
    rewrite On, Om. ring.
  - intros x. apply der_mul; [apply wt_der|apply der_mul; apply jN_der].
Qed.

(** zeroth moment *)
Theorem wt_moment b : forall a, is_RInt (wt a b) (-1) 1 (2 ^ (a + b + 1) * (INR (fact a) * INR (fact b)) / INR (fact (a + b + 1))).
Proof.
  induction b as [|b IH]; intros a.
  - assert (Ha : INR (fact a) <> 0) by apply INR_fact_neq_0. assert (0 <= INR a) by apply pos_INR.
    set (G := fun x => - / (INR a + 1) * (1 - x) ^ S a).
    replace (2 ^ (a + 0 + 1) * (INR (fact a) * INR (fact 0)) / INR (fact (a + 0 + 1))) with (G 1 - G (-1)).
    + eapply (ftc G).
      * intros x. unfold G. eapply der_value; [|apply der_scal; apply (der_pow (S a) (fun x => 1 - x)); apply der_sub; [apply der_const|apply der_id]].
        cbv beta. unfold wt. rewrite S_INR. cbn [pred pow]. field. lra.
      * intros x. apply wt_der.
    + unfold G. replace (1 - 1) with 0 by ring. replace (1 - -1) with 2 by ring.
      replace (a + 0 + 1)%nat with (S a) by lia. rewrite fact_S_R. change (INR (fact 0)) with 1. cbn [pow]. field. split; [exact Ha|lra].
  - assert (Ha : INR (fact a) <> 0) by apply INR_fact_neq_0. assert (0 <= INR a) by apply pos_INR.
    assert (Hb : INR (fact b) <> 0) by apply INR_fact_neq_0. assert (0 <= INR b) by apply pos_INR.
    set (G := fun x => - / (INR a + 1) * wt (S a) (S b) x).
    assert (EG : is_RInt (fun x => wt a (S b) x - (INR b + 1) / (INR a + 1) * wt (S a) b x) (-1) 1 (G 1 - G (-1))).
    { eapply (ftc G).
      - intros x. unfold G. eapply der_value; [|apply der_scal; apply wt_der]. unfold dwt, wt. rewrite !S_INR. cbn [pred pow]. field. lra.
      - intros x. apply der_sub; [apply wt_der|apply der_scal; apply wt_der]. }
    replace (G 1 - G (-1)) with 0 in EG.
    2: { unfold G. destruct (wt_S_ends a b) as (-> & ->). ring. }
    specialize (IH (S a)).
    assert (E2 := is_RInt_plus _ _ _ _ _ _ EG (is_RInt_scal _ _ _ ((INR b + 1) / (INR a + 1)) _ IH)).
    eapply is_RInt_ext; [|eapply eq_rect; [exact E2|]].
    + intros x _. cbv beta. unfold plus, scal. cbn. unfold mult. cbn. ring.
    + unfold plus, scal. cbn -[fact INR pow Nat.add]. unfold mult. cbn -[fact INR pow Nat.add].
      replace (S a + b + 1)%nat with (a + S b + 1)%nat by lia. rewrite !fact_S_R.
      field. split; [apply INR_fact_neq_0|lra].
Qed.
