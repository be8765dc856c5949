(** Evaluating binary64 arithmetic on concrete dyadic numbers: every result carries a check that is decided by
    integer arithmetic. *)
From Coq Require Import Reals ZArith Lia Lra Bool.
From Flocq Require Import Core.
Require Import Verif.Spec_Float.
Open Scope R_scope.

(** the number m 2^e *)
Definition val (a : Z * Z) : R := IZR (fst a) * bpow radix2 (snd a).

(** m is P/Q rounded to nearest even, and P/Q has 53 binary digits *)
Definition chk (P Q m : Z) : bool :=
  ((2 ^ 52 * Q <=? Z.abs P) && (Z.abs P <? 2 ^ 53 * Q) && (0 <? Q) &&
   ((2 * Z.abs (P - m * Q) <? Q) || ((2 * Z.abs (P - m * Q) =? Q) && Z.even m)))%Z.

Lemma ZnearestE_tie x m : Z.even m = true -> Rabs (x - IZR m) = / 2 -> ZnearestE x = m.
Proof.
  intros Ev H. unfold Znearest. destruct (Rle_lt_dec 0 (x - IZR m)) as [L|L].
  - rewrite Rabs_pos_eq in H by exact L. assert (F : Zfloor x = m) by (apply Zfloor_imp; rewrite plus_IZR; lra). rewrite F, H.
    rewrite Rcompare_Eq by reflexivity. rewrite Ev. reflexivity.
  - rewrite Rabs_left in H by exact L. assert (F : Zfloor x = (m - 1)%Z) by (apply Zfloor_imp; rewrite plus_IZR, minus_IZR; lra). rewrite F, minus_IZR.
    rewrite Rcompare_Eq by lra. replace (Z.even (m - 1)) with false; [cbn [negb]; apply Zceil_imp; rewrite minus_IZR; lra|].
    rewrite Z.even_sub, Ev. reflexivity.
Qed.
Lemma chk_ok P Q m e : chk P Q m = true -> binary64 (IZR P / IZR Q * bpow radix2 e) = IZR m * bpow radix2 e.
Proof.
  unfold chk. rewrite !andb_true_iff, orb_true_iff, andb_true_iff. intros (((A & B) & C) & D).
  apply Z.leb_le in A. apply Z.ltb_lt in B. apply Z.ltb_lt in C. assert (QP : 0 < IZR Q) by (apply IZR_lt; exact C).
  assert (A' : IZR (2 ^ 52) <= Rabs (IZR P / IZR Q)).
  { unfold Rdiv. rewrite Rabs_mult, Rabs_inv, (Rabs_pos_eq (IZR Q)) by lra. rewrite <- abs_IZR. apply Rmult_le_reg_r with (IZR Q); [exact QP|].
    rewrite Rmult_assoc, Rinv_l, Rmult_1_r by lra. rewrite <- mult_IZR. apply IZR_le. exact A. }
  assert (B' : Rabs (IZR P / IZR Q) < IZR (2 ^ 53)).
  { unfold Rdiv. rewrite Rabs_mult, Rabs_inv, (Rabs_pos_eq (IZR Q)) by lra. rewrite <- abs_IZR. apply Rmult_lt_reg_r with (IZR Q); [exact QP|].
    rewrite Rmult_assoc, Rinv_l, Rmult_1_r by lra. rewrite <- mult_IZR. apply IZR_lt. exact B. }
  assert (E52 : bpow radix2 52 = IZR (2 ^ 52)) by (rewrite <- IZR_Zpower by lia; reflexivity).
  assert (E53 : bpow radix2 53 = IZR (2 ^ 53)) by (rewrite <- IZR_Zpower by lia; reflexivity).
  unfold binary64, round, F2R, scaled_mantissa, cexp. rewrite (mag_unique radix2 _ (53 + e)).
  2: { replace (53 + e - 1)%Z with (52 + e)%Z by lia. rewrite Rabs_mult, (Rabs_pos_eq (bpow radix2 e)) by apply bpow_ge_0. rewrite !bpow_plus, E52, E53.
       assert (Pe := bpow_gt_0 radix2 e). split; [apply Rmult_le_compat_r; lra|apply Rmult_lt_compat_r; lra]. }
  unfold FLX_exp. cbn [Fnum Fexp]. replace (53 + e - 53)%Z with e by lia. rewrite Rmult_assoc, <- bpow_plus.
  replace (e + - e)%Z with 0%Z by lia. change (bpow radix2 0) with 1. rewrite Rmult_1_r. do 2 f_equal.
  assert (S : Rabs (IZR P / IZR Q - IZR m) = IZR (Z.abs (P - m * Q)) / IZR Q).
  { rewrite abs_IZR, minus_IZR, mult_IZR. replace (IZR P / IZR Q - IZR m) with ((IZR P - IZR m * IZR Q) * / IZR Q) by (field; lra). rewrite Rabs_mult, (Rabs_pos_eq (/ IZR Q)) by (apply Rlt_le, Rinv_0_lt_compat; exact QP). reflexivity. }
  destruct D as [D|(D & Ev)].
  - apply Z.ltb_lt in D. apply Znearest_imp. rewrite S. apply Rmult_lt_reg_r with (2 * IZR Q); [lra|]. replace (IZR (Z.abs (P - m * Q)) / IZR Q * (2 * IZR Q)) with (2 * IZR (Z.abs (P - m * Q))) by (field; lra).
    rewrite <- mult_IZR. replace (/ 2 * (2 * IZR Q)) with (IZR Q) by field. apply IZR_lt. exact D.
  - apply Z.eqb_eq in D. apply ZnearestE_tie; [exact Ev|]. rewrite S. apply (f_equal IZR) in D. rewrite mult_IZR in D. rewrite <- D. field.
    intros Z0. rewrite Z0 in D. rewrite Rmult_0_r in D. lra.
Qed.

(** P/Q 2^e rounded *)
Definition scaleq (P Q k : Z) : Z * Z := if (0 <=? k)%Z then (P, (Q * 2 ^ k)%Z) else ((P * 2 ^ (- k))%Z, Q).
Definition rne (P Q : Z) : Z :=
  let '(q, r) := Z.div_eucl P Q in
  if (2 * r <? Q)%Z then q else if (Q <? 2 * r)%Z then (q + 1)%Z else if Z.even q then q else (q + 1)%Z.
Definition fr (P Q e : Z) : option (Z * Z) :=
  if (P =? 0)%Z then Some (0, 0)%Z else
  let k0 := (Z.log2 (Z.abs P) - Z.log2 Q - 52)%Z in
  let '(P0, Q0) := scaleq P Q k0 in
  let k := if (Z.abs P0 <? 2 ^ 52 * Q0)%Z then (k0 - 1)%Z else k0 in
  let '(P1, Q1) := scaleq P Q k in
  let m := rne P1 Q1 in
  if chk P1 Q1 m then Some (m, (e + k)%Z) else None.
Lemma scaleq_ok P Q k : (0 < Q)%Z -> IZR P / IZR Q = IZR (fst (scaleq P Q k)) / IZR (snd (scaleq P Q k)) * bpow radix2 k.
Proof.
  intros H. apply IZR_lt in H. unfold scaleq. destruct (Z.leb_spec 0 k) as [L|L]; cbn [fst snd]; rewrite mult_IZR.
  - replace (IZR (2 ^ k)) with (bpow radix2 k) by (rewrite <- IZR_Zpower by exact L; reflexivity). assert (Pk := bpow_gt_0 radix2 k). field. lra.
  - replace (IZR (2 ^ (- k))) with (bpow radix2 (- k)) by (rewrite <- IZR_Zpower by lia; reflexivity). rewrite bpow_opp. assert (Pk := bpow_gt_0 radix2 k). field. lra.
Qed.
Lemma fr_ok P Q e a : (0 < Q)%Z -> fr P Q e = Some a -> binary64 (IZR P / IZR Q * bpow radix2 e) = val a.
Proof.
  intros HQ. unfold fr. destruct (Z.eqb_spec P 0) as [->|Np].
  - intros [= <-]. unfold val. cbn [fst snd]. replace (0 / IZR Q * bpow radix2 e) with 0 by (unfold Rdiv; ring). unfold binary64. rewrite round_0 by typeclasses eauto. ring.
  - cbv zeta. destruct (scaleq P Q _) as (P0, Q0). set (k := if (Z.abs P0 <? 2 ^ 52 * Q0)%Z then _ else _). assert (S := scaleq_ok P Q k HQ). destruct (scaleq P Q k) as (P1, Q1). cbn [fst snd] in S.
    destruct (chk P1 Q1 (rne P1 Q1)) eqn:C; [|discriminate]. intros [= <-]. unfold val. cbn [fst snd]. rewrite S, Rmult_assoc, <- bpow_plus, (Z.add_comm k e). apply chk_ok. exact C.
Qed.

(** the four operations *)
Definition align (a b : Z * Z) : Z * Z * Z :=
  let e := Z.min (snd a) (snd b) in ((fst a * 2 ^ (snd a - e))%Z, (fst b * 2 ^ (snd b - e))%Z, e).
Lemma align_ok a b x y e : align a b = (x, y, e) -> val a = IZR x * bpow radix2 e /\ val b = IZR y * bpow radix2 e.
Proof.
  unfold align, val. intros [= <- <- <-]. set (e := Z.min _ _).
  assert (G : forall c : Z * Z, (e <= snd c)%Z -> IZR (fst c) * bpow radix2 (snd c) = IZR (fst c * 2 ^ (snd c - e)) * bpow radix2 e).
  { intros c L. rewrite mult_IZR. replace (IZR (2 ^ (snd c - e))) with (bpow radix2 (snd c - e)) by (rewrite <- IZR_Zpower by lia; reflexivity).
    rewrite Rmult_assoc, <- bpow_plus. do 2 f_equal. lia. }
  split; apply G; unfold e; lia.
Qed.
Definition fadd (a b : Z * Z) : option (Z * Z) := let '(x, y, e) := align a b in fr (x + y) 1 e.
Definition fsub (a b : Z * Z) : option (Z * Z) := let '(x, y, e) := align a b in fr (x - y) 1 e.
Definition fmul (a b : Z * Z) : option (Z * Z) := fr (fst a * fst b) 1 (snd a + snd b).
Definition fdiv (a b : Z * Z) : option (Z * Z) :=
  if (fst b =? 0)%Z then None else fr (fst a * Z.sgn (fst b)) (Z.abs (fst b)) (snd a - snd b).
Lemma fadd_ok a b c : fadd a b = Some c -> binary64 (val a + val b) = val c.
Proof.
  unfold fadd. destruct (align a b) as ((x, y), e) eqn:A. apply align_ok in A. destruct A as (-> & ->). intros H. apply fr_ok in H; [|lia].
  rewrite <- H, plus_IZR. f_equal. field.
Qed.
Lemma fsub_ok a b c : fsub a b = Some c -> binary64 (val a - val b) = val c.
Proof.
  unfold fsub. destruct (align a b) as ((x, y), e) eqn:A. apply align_ok in A. destruct A as (-> & ->). intros H. apply fr_ok in H; [|lia].
  rewrite <- H, minus_IZR. f_equal. field.
Qed.
Lemma fmul_ok a b c : fmul a b = Some c -> binary64 (val a * val b) = val c.
Proof. unfold fmul, val at 1 2. intros H. apply fr_ok in H; [|lia]. rewrite <- H, mult_IZR, bpow_plus. f_equal. field. Qed.
Lemma val_neq0 a : fst a <> 0%Z -> val a <> 0.
Proof. intros H. unfold val. apply Rmult_integral_contrapositive_currified; [apply IZR_neq; exact H|]. assert (P := bpow_gt_0 radix2 (snd a)). lra. Qed.
Lemma fdiv_ok a b c : fdiv a b = Some c -> binary64 (val a / val b) = val c /\ val b <> 0.
Proof.
  unfold fdiv. destruct (Z.eqb_spec (fst b) 0) as [|Nz]; [discriminate|]. intros H. apply fr_ok in H; [|lia]. split; [|apply val_neq0; exact Nz].
  rewrite <- H. f_equal. unfold val. unfold Z.sub. rewrite bpow_plus, bpow_opp, mult_IZR. assert (P := bpow_gt_0 radix2 (snd b)).
  assert (N : IZR (fst b) <> 0) by (apply IZR_neq; exact Nz).
  assert (Q : IZR (fst b) = IZR (Z.sgn (fst b)) * IZR (Z.abs (fst b))) by (rewrite <- mult_IZR; f_equal; lia).
  assert (S : IZR (Z.sgn (fst b)) * IZR (Z.sgn (fst b)) = 1) by (rewrite <- mult_IZR; f_equal; lia).
  assert (Na : IZR (Z.abs (fst b)) <> 0) by (apply IZR_neq; lia).
  apply Rmult_eq_reg_r with (IZR (fst b)); [|exact N]. transitivity (IZR (fst a) * bpow radix2 (snd a) * / bpow radix2 (snd b)); [field; lra|].
  rewrite Q. transitivity (IZR (fst a) * (IZR (Z.sgn (fst b)) * IZR (Z.sgn (fst b))) * bpow radix2 (snd a) * / bpow radix2 (snd b)); [rewrite S; ring|field]. split; lra.
Qed.
