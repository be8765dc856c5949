(** Polynomials with a bound on the sum of their absolute coefficients; one-dimensional quadrature
    facts about Lagrange polynomials (C67). *)
From Coq Require Import Reals Arith Lia Lra.
From Coquelicot Require Import Coquelicot.
Require Import Verif.RSum Verif.RDer Verif.Poly Verif.Spec_Lagrange Verif.Lagrange_Math Verif.Spec_Poly Verif.Spec_Quad
  Verif.Proof_Quad Verif.Proof_Quad6 Verif.Spec_HexN Verif.Spec_Gcl.
Open Scope R_scope.

Definition pn (m : nat) (M : R) (f : R -> R) : Prop :=
  exists c, (forall x, f x = rsum m (fun k => c k * x ^ k)) /\ rsum m (fun k => Rabs (c k)) <= M.

Lemma pn_ext m M f g : (forall x, f x = g x) -> pn m M f -> pn m M g.
Proof. intros E (c & H & B). exists c. split; [intros x; rewrite <- E; apply H|exact B]. Qed.
Lemma pn_mono m m' M M' f : (m <= m')%nat -> M <= M' -> pn m M f -> pn m' M' f.
Proof.
  intros L LM (c & H & B). exists (fun k => if Nat.ltb k m then c k else 0). replace m' with (m + (m' - m))%nat by lia. split.
  - intros x. rewrite rsum_add, (rsum_zero (m' - m)), Rplus_0_r, H.
    + apply rsum_ext. intros k Hk. destruct (Nat.ltb_spec k m); [reflexivity|lia].
    + intros k Hk. destruct (Nat.ltb_spec (m + k) m); [lia|ring].
  - rewrite rsum_add, (rsum_zero (m' - m)), Rplus_0_r.
    + eapply Rle_trans; [|exact LM]. eapply Rle_trans; [|exact B]. right. apply rsum_ext. intros k Hk. destruct (Nat.ltb_spec k m); [reflexivity|lia].
    + intros k Hk. destruct (Nat.ltb_spec (m + k) m); [lia|apply Rabs_R0].
Qed.
Lemma pn_lin m M f u v : pn m M f -> pn (S m) ((Rabs u + Rabs v) * M) (fun x => (u * x + v) * f x).
Proof.
  intros (c & H & B).
  exists (fun k => (match k with O => 0 | S k' => u * c k' end) + (if Nat.ltb k m then v * c k else 0)). split.
  - intros x. rewrite H.
    rewrite (rsum_ext (S m) _ (fun k => (match k with O => 0 | S k' => u * c k' end) * x ^ k + (if Nat.ltb k m then v * c k else 0) * x ^ k)) by (intros; ring).
    rewrite rsum_plus, rsum_S_l. cbn [rsum]. rewrite Nat.ltb_irrefl, Rmult_0_l, Rmult_0_l, Rplus_0_l, Rplus_0_r, Rmult_plus_distr_r, <- !rsum_scal_l. f_equal.
    + apply rsum_ext. intros k _. cbn [pow]. ring.
    + apply rsum_ext. intros k Hk. destruct (Nat.ltb_spec k m); [ring|lia].
  - eapply Rle_trans.
    { apply rsum_le. intros k Hk. apply Rabs_triang. }
    rewrite rsum_plus, Rmult_plus_distr_r. apply Rplus_le_compat.
    + rewrite rsum_S_l, Rabs_R0, Rplus_0_l. eapply Rle_trans; [|apply Rmult_le_compat_l; [apply Rabs_pos|exact B]].
      rewrite <- rsum_scal_l. right. apply rsum_ext. intros. apply Rabs_mult.
    + cbn [rsum]. rewrite Nat.ltb_irrefl, Rabs_R0, Rplus_0_r. eapply Rle_trans; [|apply Rmult_le_compat_l; [apply Rabs_pos|exact B]].
      rewrite <- rsum_scal_l. right. apply rsum_ext. intros k Hk. destruct (Nat.ltb_spec k m); [apply Rabs_mult|lia].
Qed.
Lemma pn_nonneg m M f : pn m M f -> 0 <= M.
Proof. intros (c & _ & B). eapply Rle_trans; [|exact B]. apply rsum_nonneg. intros. apply Rabs_pos. Qed.
Lemma pn_abs m M f x : pn m M f -> -1 <= x <= 1 -> Rabs (f x) <= M.
Proof.
  intros (c & H & B) Hx. rewrite H. eapply Rle_trans; [apply rsum_abs|]. eapply Rle_trans; [|exact B].
  apply rsum_le. intros k _. rewrite Rabs_mult. rewrite <- (Rmult_1_r (Rabs (c k))) at 2. apply Rmult_le_compat_l; [apply Rabs_pos|].
  rewrite <- RPow_abs. rewrite <- (pow1 k). apply pow_incr. split; [apply Rabs_pos|apply Rabs_le; lra].
Qed.
Lemma pn_one m : (1 <= m)%nat -> pn m 1 (fun _ => 1).
Proof.
  intros H. apply (pn_mono 1 m 1 1); [exact H|lra|]. exists (fun _ => 1). cbn. split; [intros; ring|]. rewrite Rabs_R1. lra.
Qed.
Lemma pn_der m M f f' : (1 <= m)%nat -> pn m M f -> (forall x, derivable_pt_lim f x (f' x)) -> pn (m - 1) (INR (m - 1) * M) f'.
Proof.
  intros Hm (c & H & B) D. exists (fun k => INR (S k) * c (S k)). split.
  - intros x. apply (der_unique f x); [apply D|].
    apply (der_ext (fun x => rsum m (fun k => c k * x ^ k))); [intros; symmetry; apply H|].
    apply (der_value _ _ (rsum m (fun k => c k * (INR k * x ^ Nat.pred k)))).
    + replace m with (S (m - 1)) at 1 by lia. rewrite rsum_S_l. change (INR 0) with 0. rewrite Rmult_0_l, Rmult_0_r, Rplus_0_l.
      apply rsum_ext. intros k _. cbn [Nat.pred]. ring.
    + apply der_rsum. intros k _. apply der_scal. apply derivable_pt_lim_pow.
  - eapply Rle_trans; [|apply Rmult_le_compat_l; [apply pos_INR|exact B]].
    replace m with (S (m - 1)) at 3 by lia. rewrite rsum_S_l, Rmult_plus_distr_l.
    assert (0 <= INR (m - 1) * Rabs (c 0%nat)) by (apply Rmult_le_pos; [apply pos_INR|apply Rabs_pos]).
    rewrite <- rsum_scal_l. eapply Rle_trans; [|apply Rplus_le_compat_r; exact H0]. rewrite Rplus_0_l.
    apply rsum_le. intros k Hk. rewrite Rabs_mult, (Rabs_right (INR (S k))) by (apply Rle_ge, pos_INR).
    apply Rmult_le_compat_r; [apply Rabs_pos|]. apply le_INR. lia.
Qed.

(** products with the linear factors of a Lagrange polynomial *)
Definition but (i N : nat) : nat := if Nat.ltb i N then (N - 1)%nat else N.
Lemma pn_but m M f i (u v : nat -> R) N : pn m M f ->
  pn (m + but i N) (M * rprod N (fun j => if Nat.eqb j i then 1 else Rabs (u j) + Rabs (v j)))
     (fun x => f x * rprod N (fun j => if Nat.eqb j i then 1 else u j * x + v j)).
Proof.
  intros H. induction N as [|N IH].
  - cbn [rprod]. replace (m + but i 0)%nat with m by (unfold but; destruct (Nat.ltb_spec i 0); lia). rewrite Rmult_1_r. apply (pn_ext m M f); [intros; ring|exact H].
  - cbn [rprod]. destruct (Nat.eqb_spec N i) as [->|E].
    + apply (pn_ext _ _ (fun x => f x * rprod i (fun j => if Nat.eqb j i then 1 else u j * x + v j))); [intros; ring|].
      rewrite Rmult_1_r. revert IH. unfold but. destruct (Nat.ltb_spec i i); [lia|]. destruct (Nat.ltb_spec i (S i)); [|lia]. replace (S i - 1)%nat with i by lia. auto.
    + apply (pn_lin _ _ _ (u N) (v N)) in IH.
      replace (m + but i (S N))%nat with (S (m + but i N)) by (unfold but; destruct (Nat.ltb_spec i (S N)), (Nat.ltb_spec i N); lia).
      revert IH. intros IH. apply (pn_ext _ _ (fun x => (u N * x + v N) * (f x * rprod N (fun j => if Nat.eqb j i then 1 else u j * x + v j)))); [intros; ring|].
      eapply pn_mono; [apply Nat.le_refl| |exact IH]. right. ring.
Qed.

Lemma rprod_nonneg n f : (forall i, (i < n)%nat -> 0 <= f i) -> 0 <= rprod n f.
Proof. induction n; intros H; cbn [rprod]; [lra|]. apply Rmult_le_pos; [apply IHn; intros; apply H; lia|apply H; lia]. Qed.
Lemma growth_nonneg n Z i : 0 <= growth n Z i.
Proof.
  apply rprod_nonneg. intros j _. destruct (Nat.eqb j i); [lra|]. unfold Rdiv. apply Rmult_le_pos; [generalize (Rabs_pos (Z j)); lra|].
  destruct (Req_dec (Z i - Z j) 0) as [E|E]; [rewrite E, Rabs_R0, Rinv_0; lra|]. apply Rlt_le, Rinv_0_lt_compat, Rabs_pos_lt. exact E.
Qed.
Lemma pn_ell m M f n Z i : (i < n)%nat -> distinct n Z -> pn m M f -> pn (m + (n - 1)) (M * growth n Z i) (fun x => f x * ell n Z i x).
Proof.
  intros Hi D H. apply (pn_but m M f i (fun j => / (Z i - Z j)) (fun j => - Z j * / (Z i - Z j)) n) in H.
  revert H. unfold but. destruct (Nat.ltb_spec i n); [|lia]. intros H0.
  eapply pn_ext; [|eapply pn_mono; [apply Nat.le_refl| |exact H0]].
  - intros x. cbv beta. f_equal. unfold ell. apply rprod_ext. intros j _. destruct (Nat.eqb j i); [reflexivity|]. unfold Rdiv. ring.
  - right. f_equal. unfold growth. apply rprod_ext. intros j Hj. destruct (Nat.eqb_spec j i) as [E|E]; [reflexivity|].
    assert (Z i - Z j <> 0) by (specialize (D i j Hi Hj ltac:(congruence)); lra).
    rewrite Rabs_mult, Rabs_Ropp, Rabs_Rinv by assumption. unfold Rdiv. ring.
Qed.
Lemma ell_pn n Z i : (i < n)%nat -> distinct n Z -> pn n (growth n Z i) (ell n Z i).
Proof.
  intros Hi D. generalize (pn_ell 1 1 (fun _ => 1) n Z i Hi D (pn_one 1 ltac:(lia))). replace (1 + (n - 1))%nat with n by lia. rewrite Rmult_1_l.
  apply pn_ext. intros. ring.
Qed.
Lemma dell_pn n Z i : (i < n)%nat -> distinct n Z -> pn (n - 1) (INR (n - 1) * growth n Z i) (dell n Z i).
Proof. intros Hi D. apply (pn_der n _ (ell n Z i)); [lia|apply ell_pn; assumption|intros; apply ell_der]. Qed.

(** quadrature of a polynomial with known coefficient sum *)
Lemma pn_quad nq deg tol x w m M f I : quad_rule nq deg tol x w -> 0 <= tol -> pn m M f -> (m <= S deg)%nat -> is_RInt f (-1) 1 I ->
  Rabs (rsum nq (fun q => w q * f (x q)) - I) <= tol * M.
Proof.
  intros Q Ht H Hm HI. apply (pn_mono m (S deg) M M f Hm (Rle_refl M)) in H. destruct H as (c & H & B).
  assert (E := q_exact _ _ _ _ _ Q c I). unfold poly in E.
  rewrite (rsum_ext nq _ (fun q => w q * rsum (S deg) (fun k => c k * x q ^ k))) by (intros; rewrite H; reflexivity).
  eapply Rle_trans; [apply E|apply Rmult_le_compat_l; assumption].
  unfold integral. eapply is_RInt_ext; [|exact HI]. intros t _. apply H.
Qed.
Lemma weight_sum nq deg tol x w : quad_rule nq deg tol x w -> Rabs (rsum nq w - 2) <= tol.
Proof.
  intros Q. assert (P := rule_moments _ _ _ _ _ Q 0%nat ltac:(lia)). replace (mom 0) with 2 in P by (unfold mom; cbn; field).
  rewrite (rsum_ext nq _ w) in P by (intros; cbn; ring). exact P.
Qed.
Lemma quad_le nq deg tol x w f M : quad_rule nq deg tol x w -> 0 <= M -> (forall t, -1 <= t <= 1 -> Rabs (f t) <= M) ->
  Rabs (rsum nq (fun q => w q * f (x q))) <= (2 + tol) * M.
Proof.
  intros Q HM H. eapply Rle_trans; [apply rsum_abs|].
  eapply Rle_trans; [apply (rsum_le nq _ (fun q => w q * M))|].
  - intros q Hq. assert (P := q_positive _ _ _ _ _ Q q Hq). rewrite Rabs_mult, (Rabs_right (w q)) by lra.
    apply Rmult_le_compat_l; [lra|]. apply H. apply (q_inside _ _ _ _ _ Q q Hq).
  - rewrite rsum_scal_r. apply Rmult_le_compat_r; [exact HM|]. assert (W := weight_sum _ _ _ _ _ Q). apply Rabs_le_between in W. lra.
Qed.

(** ** the two one-dimensional sums of the area check *)
Definition S1 (nq : nat) (x w : nat -> R) (n : nat) (Z : nat -> R) (a b : nat) : R := rsum nq (fun q => w q * (dell n Z a (x q) * ell n Z b (x q))).
Definition E1 (n : nat) (Z : nat -> R) (a b : nat) : R := ell n Z a 1 * ell n Z b 1 - ell n Z a (-1) * ell n Z b (-1).

Lemma cont_pn m M f x : pn m M f -> continuous f x.
Proof.
  intros (c & H & _). apply (ex_derive_continuous f x).
  exists (rsum m (fun k => c k * (INR k * x ^ Nat.pred k))). apply is_derive_Reals.
  apply (der_ext (fun x => rsum m (fun k => c k * x ^ k))); [intros; symmetry; apply H|].
  apply der_rsum. intros k _. apply der_scal. apply derivable_pt_lim_pow.
Qed.

Section OneD.
Variables (nq deg : nat) (tol : R) (x w : nat -> R) (n : nat) (Z : nat -> R) (L : R).
Hypothesis Q : quad_rule nq deg tol x w.
Hypothesis T0 : 0 <= tol.
Hypothesis D : distinct n Z.
Hypothesis HL : forall a, (a < n)%nat -> growth n Z a <= L.

Lemma L_mul a b : (a < n)%nat -> (b < n)%nat -> growth n Z a * growth n Z b <= L * L.
Proof. intros Ha Hb. apply Rmult_le_compat; try apply growth_nonneg; apply HL; assumption. Qed.
Lemma L_pos a : (a < n)%nat -> 0 <= L.
Proof. intros Ha. generalize (HL a Ha), (growth_nonneg n Z a). lra. Qed.

Lemma S1_bound a b : (a < n)%nat -> (b < n)%nat -> Rabs (S1 nq x w n Z a b) <= (2 + tol) * (INR (n - 1) * (L * L)).
Proof.
  intros Ha Hb. unfold S1. apply (quad_le nq deg tol x w (fun t => dell n Z a t * ell n Z b t)); [exact Q| |].
  - apply Rmult_le_pos; [apply pos_INR|]. apply Rmult_le_pos; apply (L_pos a Ha).
  - intros t Ht.
    assert (P := pn_ell _ _ _ n Z b Hb D (dell_pn n Z a Ha D)). eapply Rle_trans; [apply (pn_abs _ _ _ t P Ht)|].
    rewrite Rmult_assoc. apply Rmult_le_compat_l; [apply pos_INR|]. apply L_mul; assumption.
Qed.

Lemma S1_parts a b : (a < n)%nat -> (b < n)%nat -> (2 * n - 2 <= S deg)%nat ->
  Rabs (S1 nq x w n Z a b + S1 nq x w n Z b a - E1 n Z a b) <= tol * (INR (2 * n - 2) * (L * L)).
Proof.
  intros Ha Hb Hd.
  set (f := fun t => ell n Z a t * ell n Z b t). set (f' := fun t => dell n Z a t * ell n Z b t + ell n Z a t * dell n Z b t).
  assert (Df : forall t, derivable_pt_lim f t (f' t)) by (intros t; apply der_mul; apply ell_der).
  assert (Pf : pn (2 * n - 1) (L * L) f).
  { assert (P := pn_ell _ _ _ n Z b Hb D (ell_pn n Z a Ha D)). eapply pn_mono; [|apply (L_mul a b Ha Hb)|exact P]. lia. }
  assert (N1 : (1 <= 2 * n - 1)%nat) by lia. assert (Pf' := pn_der _ _ f f' N1 Pf Df). replace (2 * n - 1 - 1)%nat with (2 * n - 2)%nat in Pf' by lia.
  assert (If : is_RInt f' (-1) 1 (E1 n Z a b)).
  { unfold E1. change (is_RInt f' (-1) 1 (minus (f 1) (f (-1)))). apply (is_RInt_derive f f').
    - intros t _. apply is_derive_Reals, Df.
    - intros t _. apply (cont_pn _ _ _ _ Pf'). }
  replace (S1 nq x w n Z a b + S1 nq x w n Z b a) with (rsum nq (fun q => w q * f' (x q))).
  - apply (pn_quad _ _ _ _ _ _ _ _ _ Q T0 Pf' Hd If).
  - unfold S1. rewrite <- rsum_plus. apply rsum_ext. intros q _. unfold f'. ring.
Qed.

(** the combination that appears for a pair of basis functions *)
Definition K3 (e0 e1 e2 s0 s1 s2 t0 t1 t2 : R) : R := e0 * (s1 * t2 - t1 * s2) + e1 * (s2 * t0 - t2 * s0) + e2 * (s0 * t1 - t0 * s1).
Lemma K3_bound ep sg e0 e1 e2 s0 s1 s2 t0 t1 t2 : 0 <= ep -> 0 <= sg ->
  Rabs (s0 + t0 - e0) <= ep -> Rabs (s1 + t1 - e1) <= ep -> Rabs (s2 + t2 - e2) <= ep ->
  Rabs s0 <= sg -> Rabs s1 <= sg -> Rabs s2 <= sg -> Rabs t0 <= sg -> Rabs t1 <= sg -> Rabs t2 <= sg ->
  Rabs (K3 e0 e1 e2 s0 s1 s2 t0 t1 t2) <= 6 * ep * (sg * sg).
Proof.
  intros He Hs A0 A1 A2 B0 B1 B2 C0 C1 C2.
  replace (K3 e0 e1 e2 s0 s1 s2 t0 t1 t2) with
    (- ((s0 + t0 - e0) * (s1 * t2 - t1 * s2) + (s1 + t1 - e1) * (s2 * t0 - t2 * s0) + (s2 + t2 - e2) * (s0 * t1 - t0 * s1))) by (unfold K3; ring).
  rewrite Rabs_Ropp.
  assert (P : forall a b c d, Rabs a <= sg -> Rabs b <= sg -> Rabs c <= sg -> Rabs d <= sg -> Rabs (a * b - c * d) <= 2 * (sg * sg)).
  { intros a b c d Ha Hb Hc Hd. unfold Rminus. eapply Rle_trans; [apply Rabs_triang|]. rewrite Rabs_Ropp, !Rabs_mult.
    assert (Rabs a * Rabs b <= sg * sg) by (apply Rmult_le_compat; auto using Rabs_pos).
    assert (Rabs c * Rabs d <= sg * sg) by (apply Rmult_le_compat; auto using Rabs_pos). lra. }
  assert (G : forall a b, Rabs a <= ep -> Rabs b <= 2 * (sg * sg) -> Rabs (a * b) <= 2 * ep * (sg * sg)).
  { intros a b Ha Hb. rewrite Rabs_mult. replace (2 * ep * (sg * sg)) with (ep * (2 * (sg * sg))) by ring. apply Rmult_le_compat; auto using Rabs_pos. }
  eapply Rle_trans; [apply Rabs_triang|]. eapply Rle_trans; [apply Rplus_le_compat_r, Rabs_triang|].
  assert (X0 := G _ _ A0 (P s1 t2 t1 s2 B1 C2 C1 B2)). assert (X1 := G _ _ A1 (P s2 t0 t2 s0 B2 C0 C2 B0)). assert (X2 := G _ _ A2 (P s0 t1 t0 s1 B0 C1 C0 B1)). lra.
Qed.
Lemma pair_bound a0 a1 a2 b0 b1 b2 : (a0 < n)%nat -> (a1 < n)%nat -> (a2 < n)%nat -> (b0 < n)%nat -> (b1 < n)%nat -> (b2 < n)%nat -> (2 * n - 2 <= S deg)%nat ->
  let S_ := S1 nq x w n Z in let E_ := E1 n Z in
  Rabs (K3 (E_ a0 b0) (E_ a1 b1) (E_ a2 b2) (S_ a0 b0) (S_ a1 b1) (S_ a2 b2) (S_ b0 a0) (S_ b1 a1) (S_ b2 a2))
   <= 6 * (tol * (INR (2 * n - 2) * (L * L))) * ((2 + tol) * (INR (n - 1) * (L * L)) * ((2 + tol) * (INR (n - 1) * (L * L)))).
Proof.
  intros A0 A1 A2 B0 B1 B2 Hd S_ E_. assert (LP := L_pos a0 A0). assert (LL : 0 <= L * L) by (apply Rmult_le_pos; assumption).
  apply K3_bound; try (apply S1_bound; assumption); try (apply S1_parts; assumption).
  - apply Rmult_le_pos; [exact T0|]. apply Rmult_le_pos; [apply pos_INR|exact LL].
  - apply Rmult_le_pos; [lra|]. apply Rmult_le_pos; [apply pos_INR|exact LL].
Qed.
End OneD.
