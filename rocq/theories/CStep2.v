(** Polynomials with real coefficients on R and on C: uniqueness of the extension and derivatives
    (library; models nothing in /repo). *)
From Coq Require Import Reals Lra Lia Arith.
From Coquelicot Require Import Complex.
Require Import Verif.RSum Verif.RDer Verif.CSum Verif.CPoly Verif.Spec_Poly Verif.Spec_Complex Verif.CStep.
Open Scope R_scope.

Lemma same_poly_cpoly n f F : same_poly n f F -> cpoly_lt n F.
Proof. intros (a & _ & H). exists (fun k => RtoC (a k)). exact H. Qed.
Lemma same_poly_RtoC n f F x : same_poly n f F -> F (RtoC x) = RtoC (f x).
Proof.
  intros (a & H1 & H2). rewrite H2, H1, <- csum_RtoC. apply csum_ext. intros k _.
  rewrite cpow_RtoC, <- RtoC_mult. reflexivity.
Qed.
Lemma same_poly_unique n m f F G X : same_poly n f F -> same_poly m f G -> F X = G X.
Proof.
  intros HF HG. apply (cpoly_agree (Nat.max n m) F G (fun i => RtoC (INR i))).
  - apply (cpoly_mono n); [lia|]. apply (same_poly_cpoly n f). exact HF.
  - apply (cpoly_mono m); [lia|]. apply (same_poly_cpoly m f). exact HG.
  - intros i j _ _ E Q. apply E. apply RtoC_inj in Q. apply INR_eq. exact Q.
  - intros i _. rewrite (same_poly_RtoC n f F _ HF), (same_poly_RtoC m f G _ HG). reflexivity.
Qed.

Lemma cder_mulX n F X d : cpoly_lt n F -> is_cder F X d -> is_cder (fun t => t * F t)%C X (F X + X * d)%C.
Proof.
  intros HF Hd. destruct (cpoly_factor n F X) as (g & Hg & Eg); [apply (cpoly_mono n); [lia|exact HF]|].
  assert (Eh : forall y, (y * F y = X * F X + (y - X) * (F X + y * g y))%C) by (intros y; rewrite (Eg y); ring).
  assert (Hg' : is_cder F X (g X)).
  { apply (cder_factor F g n X); [apply (cpoly_mono n); [lia|exact Hg]|exact Eg]. }
  rewrite (cder_unique F X d (g X) Hd Hg').
  apply (cder_factor (fun t => t * F t)%C (fun y => F X + y * g y)%C n X).
  - apply (cpoly_add (S n) (fun _ => F X) (fun y => y * g y)%C); [apply cpoly_const; lia|].
    apply cpoly_mulX. exact Hg.
  - exact Eh.
Qed.

Lemma same_poly_der n : forall f F, same_poly n f F -> exists f' F', same_poly n f' F' /\
  (forall x, derivable_pt_lim f x (f' x)) /\ (forall X, is_cder F X (F' X)).
Proof.
  induction n as [|n IH]; intros f F (a & H1 & H2).
  - exists (fun _ => 0), (fun _ => RtoC 0). split; [apply same_poly_zero|]. split; intros x.
    + apply (der_ext (fun _ => 0)); [intros t; rewrite H1; reflexivity|]. apply der_const.
    + apply (cder_ext (fun _ => RtoC 0)); [intros t; rewrite H2; reflexivity|]. apply cder_const.
  - set (q := fun x => rsum n (fun k => a (S k) * x ^ k)).
    set (Q := fun X => csum n (fun k => RtoC (a (S k)) * cpow X k)%C).
    assert (HQ : same_poly n q Q) by (exists (fun k => a (S k)); split; reflexivity).
    destruct (IH q Q HQ) as (q' & Q' & S' & D1 & D2).
    exists (fun x => q x + x * q' x), (fun X => Q X + X * Q' X)%C. split; [|split].
    + apply same_poly_add; [apply (same_poly_mono n); [lia|exact HQ]|]. apply same_poly_mulX. exact S'.
    + intros x. apply (der_ext (fun t => a 0%nat + t * q t)).
      { intros t. rewrite H1, rsum_S_l. cbn [pow]. unfold q. rewrite <- rsum_scal_l. f_equal; [ring|].
        apply rsum_ext. intros; ring. }
      apply (der_value _ _ (0 + (1 * q x + x * q' x))); [ring|].
      apply (der_add (fun _ => a 0%nat) (fun t => t * q t)); [apply der_const|].
      apply (der_mul (fun t => t) q); [apply der_id|apply D1].
    + intros X. apply (cder_ext (fun t => RtoC (a 0%nat) + t * Q t)%C).
      { intros t. rewrite H2, csum_S_l. cbn [cpow]. unfold Q. rewrite <- csum_scal_l. f_equal; [ring|].
        apply csum_ext. intros; ring. }
      replace (Q X + X * Q' X)%C with (RtoC 0 + (Q X + X * Q' X))%C by ring.
      apply (cder_plus (fun _ => RtoC (a 0%nat)) (fun t => t * Q t)%C); [apply cder_const|].
      apply (cder_mulX n Q X (Q' X)); [apply (same_poly_cpoly n q); exact HQ|apply D2].
Qed.

Lemma same_poly_cder n m f F g G X : same_poly n f F -> same_poly m g G ->
  (forall x, derivable_pt_lim f x (g x)) -> is_cder F X (G X).
Proof.
  intros HF HG Hd. destruct (same_poly_der n f F HF) as (f' & F' & S' & D1 & D2).
  replace (G X) with (F' X); [apply D2|]. apply (same_poly_unique n m g); [|exact HG].
  apply (same_poly_ext n f' g F' F'); [|reflexivity|exact S']. intros x. apply (der_unique f x); auto.
Qed.

Lemma nth_der_ext' k : forall f g x d, (forall t, f t = g t) -> nth_der k f x d -> nth_der k g x d.
Proof.
  destruct k as [|k]; cbn; intros f g x d E H; [rewrite <- E; exact H|].
  destruct H as (h & Hh & H). exists h. split; [|exact H]. intros t. apply (der_ext f); [exact E|apply Hh].
Qed.
Lemma same_poly_nth k : forall n m f F g G X, same_poly n f F -> same_poly m g G ->
  (forall x, nth_der k f x (g x)) -> nth_cder k F X (G X).
Proof.
  induction k as [|k IH]; intros n m f F g G X HF HG H; cbn [nth_cder].
  - apply (same_poly_unique n m g); [|exact HG]. apply (same_poly_ext n f g F F); [exact H|reflexivity|exact HF].
  - destruct (same_poly_der n f F HF) as (f' & F' & S' & D1 & D2). exists F'. split; [exact D2|].
    apply (IH n m f' F' g G); [exact S'|exact HG|]. intros x. destruct (H x) as (h & Hh & K).
    apply (nth_der_ext' k h); [|exact K]. intros t. apply (der_unique f t); auto.
Qed.
