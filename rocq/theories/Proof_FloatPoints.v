(** Point distributions in rounded arithmetic. *)
From Coq Require Import Reals ZArith Arith Lia Lra.
Require Import Verif.Base Verif.RBase Verif.Model_Points Verif.Proof_Points Verif.Spec_Float Verif.Float_Base Verif.Model_FloatLagrange Verif.Spec_FloatRefine Verif.Model_FloatPoints Verif.Spec_FloatPoints.
Open Scope R_scope.

Lemma equi_id N Zl Zr Z : equispaced_pointsf (fun x => x) N Zl Zr Z = equispaced_points N Zl Zr Z.
Proof. reflexivity. Qed.
Lemma cheb_id N Zl Zr Z : chebyshev_pointsf (fun x => x) sin N Zl Zr Z = chebyshev_points N Zl Zr Z.
Proof. reflexivity. Qed.

Lemma sin_abs x : Rabs (sin x) <= Rabs x.
Proof.
  assert (P : forall x, 0 <= x -> Rabs (sin x) <= x).
  { intros y Hy. destruct (Req_dec y 0) as [->|Ne]; [rewrite sin_0, Rabs_R0; lra|]. assert (L := sin_lt_x y ltac:(lra)).
    apply Rabs_le. split; [|lra]. destruct (Rle_dec y 1) as [H1|H1]; [|assert (B := SIN_bound y); lra].
    assert (Pp := PI_RGT_0). assert (P4 := PI2_1). assert (0 < sin y) by (apply sin_gt_0; lra). lra. }
  destruct (Rle_dec 0 x) as [H|H]; [rewrite (Rabs_pos_eq x) by lra; apply P; exact H|].
  rewrite <- (Rabs_Ropp (sin x)), <- sin_neg, <- (Rabs_Ropp x), (Rabs_pos_eq (- x)) by lra. apply P. lra.
Qed.
Lemma sin_lip x y : Rabs (sin x - sin y) <= Rabs (x - y).
Proof.
  rewrite form4. rewrite !Rabs_mult. rewrite (Rabs_pos_eq 2) by lra. assert (A := sin_abs ((x - y) / 2)).
  unfold Rdiv in A at 2. rewrite Rabs_mult, (Rabs_pos_eq (/ 2)) in A by lra.
  assert (C : Rabs (cos ((x + y) / 2)) <= 1) by (apply Rabs_le; apply COS_bound). assert (0 <= Rabs (cos ((x + y) / 2))) by apply Rabs_pos. assert (0 <= Rabs (sin ((x - y) / 2))) by apply Rabs_pos. nra.
Qed.

Section P.
Context (u : R) (rnd : R -> R).
Hypothesis HD : double_like u rnd.
Let U : 0 <= u < 1. Proof. destruct HD as (H & _). lra. Qed.
Let Hr : rounds u rnd. Proof. apply HD. Qed.
Let rw := rnd_w u U rnd Hr.
Let mono x y : x <= y -> rnd x <= rnd y. Proof. apply HD. Qed.
Let idem x : rnd (rnd x) = rnd x. Proof. apply HD. Qed.
Let opp x : rnd (- x) = - rnd x. Proof. apply HD. Qed.
Let r0 : rnd 0 = 0. Proof. apply (rnd_0 u U rnd Hr). Qed.
Let half x : rnd (1 / 2 * x) = 1 / 2 * rnd x.
Proof. destruct HD as (_ & _ & _ & _ & H2 & _). assert (H := H2 (1 / 2 * x)). replace (2 * (1 / 2 * x)) with x in H by field. lra. Qed.
Notation within := (within u).

(** ** equispaced points *)
Definition equf (N : nat) (Zl Zr : R) (i : nat) : R := rnd (Zl + rnd (rnd (INR i / INR (N - 1)) * rnd (Zr - Zl))).
Lemma equf_ok N Zl Zr Z0 : (2 <= N)%nat -> exists Z, equispaced_pointsf rnd N Zl Zr Z0 = Ok Z /\
  (forall i, (i < N)%nat -> Z i = equf N Zl Zr i) /\ (forall i, (N <= i)%nat -> Z i = Z0 i).
Proof.
  intros HN. unfold equispaced_pointsf.
  assert (HDn : INR (N - 1) <> 0) by (apply not_0_INR; lia).
  edestruct (loop_inv (fun m (Z : nat -> R) => (forall i, (i < m)%nat -> Z i = equf N Zl Zr i) /\ forall i, (m <= i)%nat -> Z i = Z0 i) N) as (Z & E & H1 & H2).
  3: { exists Z. split; [exact E|]. split; assumption. }
  - split; [intros; lia|reflexivity].
  - intros k Z Hk (IH1 & IH2). unfold rdivf. destruct (Req_EM_T (INR (N - 1)) 0); [contradiction|]. cbn [bind]. eexists. split; [reflexivity|]. split.
    + intros i Hi. destruct (Nat.eq_dec i k) as [->|Ne]; [apply fset_eq|]. rewrite fset_neq by exact Ne. apply IH1. lia.
    + intros i Hi. rewrite fset_neq by lia. apply IH2. lia.
Qed.
Lemma equf_first N Zl Zr : rnd Zl = Zl -> equf N Zl Zr 0 = Zl.
Proof. intros H. unfold equf. cbn [INR]. unfold Rdiv. rewrite Rmult_0_l, r0, Rmult_0_l, r0, Rplus_0_r. exact H. Qed.
Lemma equf_last N Zl Zr : (2 <= N)%nat -> equf N Zl Zr (N - 1) = rnd (Zl + rnd (Zr - Zl)).
Proof.
  intros HN. unfold equf. unfold Rdiv. rewrite Rinv_r by (apply not_0_INR; lia). destruct HD as (_ & _ & _ & _ & _ & _ & R1). rewrite R1, Rmult_1_l, idem. reflexivity.
Qed.
Lemma equf_mono N Zl Zr i j : (2 <= N)%nat -> Zl <= Zr -> (i <= j)%nat -> equf N Zl Zr i <= equf N Zl Zr j.
Proof.
  intros HN HZ Hij. unfold equf. apply mono. apply Rplus_le_compat_l. apply mono. apply Rmult_le_compat_r; [apply (rnd_sign u U rnd Hr); lra|].
  apply mono. unfold Rdiv. apply Rmult_le_compat_r; [apply Rlt_le, Rinv_0_lt_compat, lt_0_INR; lia|apply le_INR; exact Hij].
Qed.
Lemma equf_err N Zl Zr i : (2 <= N)%nat -> let x := INR i / INR (N - 1) * (Zr - Zl) in Rabs (equf N Zl Zr i - (Zl + x)) <= gamma u 4 * (Rabs Zl + Rabs x).
Proof.
  intros HN x. assert (H4 : INR 4 * u < 1) by (destruct HD as (H & _); cbn [INR]; lra).
  unfold equf. destruct (rw (INR i / INR (N - 1))) as (t1 & W1 & ->). destruct (rw (Zr - Zl)) as (t2 & W2 & ->).
  destruct (rw (INR i / INR (N - 1) * t1 * ((Zr - Zl) * t2))) as (t3 & W3 & ->).
  destruct (rw (Zl + INR i / INR (N - 1) * t1 * ((Zr - Zl) * t2) * t3)) as (t4 & W4 & ->).
  replace ((Zl + INR i / INR (N - 1) * t1 * ((Zr - Zl) * t2) * t3) * t4 - (Zl + x)) with (Zl * (t4 - 1) + x * (t1 * t2 * t3 * t4 - 1)) by (unfold x; ring).
  assert (A : Rabs (t4 - 1) <= gamma u 4) by (apply (within_gamma u U); [exact H4|]; apply (within_le u U 1 4); [lia|exact W4]).
  assert (B : Rabs (t1 * t2 * t3 * t4 - 1) <= gamma u 4).
  { apply (within_gamma u U); [exact H4|]. change 4%nat with (1 + 1 + 1 + 1)%nat. repeat apply (within_mul u U); assumption. }
  assert (P1 := Rabs_pos Zl). assert (P2 := Rabs_pos x).
  apply Rle_trans with (1 := Rabs_triang _ _). rewrite !Rabs_mult. rewrite Rmult_plus_distr_l. apply Rplus_le_compat; rewrite Rmult_comm; apply Rmult_le_compat_r; assumption.
Qed.

(** ** Chebyshev points *)
Context (sine : R -> R) (v : R).
Let B := rnd PI / 2.
Hypothesis HS : close_sine v B sine.
Context (N : nat).
Hypothesis HN : (1 <= N)%nat.
Hypothesis HNu : INR N * u <= 1.

Definition angf (i : nat) : R := rnd (rnd (rnd (1 / 2 * rnd PI) / INR N) * IZR ((-1 * Z.of_nat N + 1) + 2 * Z.of_nat i)).
Definition chpf (Zl Zr : R) (i : nat) : R := let z := sine (angf i) in rnd (rnd (rnd (1 / 2 * rnd (1 - z)) * Zl) + rnd (rnd (1 / 2 * rnd (1 + z)) * Zr)).

Lemma chebf_ok Zl Zr Z0 : exists Z, chebyshev_pointsf rnd sine N Zl Zr Z0 = Ok Z /\
  (forall i, (i < N)%nat -> Z i = chpf Zl Zr i) /\ (forall i, (N <= i)%nat -> Z i = Z0 i).
Proof.
  unfold chebyshev_pointsf. destruct (Nat.eqb_spec N 0); [lia|]. assert (HDn : INR N <> 0) by (apply not_0_INR; lia).
  unfold rdivf. destruct (Req_EM_T (INR N) 0); [contradiction|]. cbn [bind]. cbv zeta. eexists. split; [reflexivity|].
  assert (V : forall i, fold_up N (fun i Z => fset Z i (rnd (rnd (rnd (1 / 2 * rnd (1 - Z i)) * Zl) + rnd (rnd (1 / 2 * rnd (1 + Z i)) * Zr))))
     (fold_up N (fun i Z => fset Z i (sine (rnd (rnd (rnd (1 / 2 * rnd PI) / INR N) * IZR (-1 * Z.of_nat N + 1 + 2 * Z.of_nat i))))) Z0) i
     = if Nat.ltb i N then chpf Zl Zr i else Z0 i).
  { intros i. rewrite (map_up N (fun z => rnd (rnd (rnd (1 / 2 * rnd (1 - z)) * Zl) + rnd (rnd (1 / 2 * rnd (1 + z)) * Zr)))).
    rewrite (fill_up N (fun i => sine (rnd (rnd (rnd (1 / 2 * rnd PI) / INR N) * IZR (-1 * Z.of_nat N + 1 + 2 * Z.of_nat i))))).
    destruct (Nat.ltb_spec i N); reflexivity. }
  split; intros i Hi; rewrite V; destruct (Nat.ltb_spec i N); try lia; reflexivity.
Qed.

Lemma B_pos : 0 < B.
Proof. unfold B. assert (P := rnd_pos u U rnd Hr PI PI_RGT_0). lra. Qed.
Lemma B_dbl : rnd B = B.
Proof. unfold B. replace (rnd PI / 2) with (1 / 2 * rnd PI) by field. rewrite half, idem. reflexivity. Qed.
Lemma start_B : rnd (1 / 2 * rnd PI) = B.
Proof. rewrite half, idem. unfold B. field. Qed.
Lemma step_pos : 0 < rnd (B / INR N).
Proof. apply (rnd_pos u U rnd Hr). apply Rdiv_lt_0_compat; [exact B_pos|apply lt_0_INR; lia]. Qed.
Lemma angf_range i : (i < N)%nat -> - B <= angf i <= B.
Proof.
  intros Hi. unfold angf. rewrite start_B. set (j := (-1 * Z.of_nat N + 1 + 2 * Z.of_nat i)%Z). assert (PB := B_pos). assert (PN : 0 < INR N) by (apply lt_0_INR; lia).
  assert (J : - (INR N - 1) <= IZR j <= INR N - 1).
  { rewrite INR_IZR_INZ, <- (minus_IZR _ 1), <- opp_IZR. split; apply IZR_le; unfold j; lia. }
  assert (S0 := step_pos). assert (S1 : rnd (B / INR N) * (INR N - 1) <= B).
  { destruct (Hr (B / INR N)) as (d & D & ->). 
    assert (D1 : d <= u) by (apply Rle_trans with (Rabs d); [apply Rle_abs|exact D]).
    assert (N1 : 1 <= INR N) by (change 1 with (INR 1); apply le_INR; exact HN).
    replace (B / INR N * (1 + d) * (INR N - 1)) with (B * ((1 + d) * (INR N - 1) / INR N)) by (field; lra).
    rewrite <- (Rmult_1_r B) at 2. apply Rmult_le_compat_l; [lra|]. apply (Rmult_le_reg_r (INR N)); [exact PN|]. unfold Rdiv. rewrite Rmult_assoc, Rinv_l, Rmult_1_r, Rmult_1_l by lra. nra. }
  split.
  - rewrite <- B_dbl at 1. rewrite <- opp. apply mono. nra.
  - rewrite <- B_dbl at 2. apply mono. nra.
Qed.
Lemma angf_abs i : (i < N)%nat -> Rabs (angf i) <= B.
Proof. intros Hi. apply Rabs_le. apply angf_range. exact Hi. Qed.
Lemma angf_mono i j : (i <= j)%nat -> angf i <= angf j.
Proof. intros H. unfold angf. rewrite start_B. assert (S := step_pos). apply mono. apply Rmult_le_compat_l; [lra|]. apply IZR_le. lia. Qed.
Lemma angf_sym i : (i < N)%nat -> angf (N - 1 - i) = - angf i.
Proof. intros H. unfold angf. rewrite <- opp. f_equal. rewrite Ropp_mult_distr_r, <- opp_IZR. f_equal. f_equal. lia. Qed.
Lemma sine_in i : (i < N)%nat -> -1 <= sine (angf i) <= 1.
Proof. intros Hi. destruct (proj1 HS _ (angf_abs i Hi)) as (_ & H & _). unfold Rabs in H. destruct (Rcase_abs _) in H; lra. Qed.
Lemma sine_mono i j : (i <= j)%nat -> (j < N)%nat -> sine (angf i) <= sine (angf j).
Proof. intros H Hj. assert (A := angf_range i ltac:(lia)). assert (C := angf_range j Hj). apply (proj2 HS); try lra. apply angf_mono. exact H. Qed.

Lemma chpf_sym a i : (i < N)%nat -> chpf (- a) a (N - 1 - i) = - chpf (- a) a i.
Proof.
  intros Hi. unfold chpf. cbv zeta. rewrite (angf_sym i Hi). rewrite (proj1 (proj1 HS _ (angf_abs i Hi))). set (z := sine (angf i)).
  replace (1 - - z) with (1 + z) by ring. replace (1 + - z) with (1 - z) by ring. rewrite <- opp. f_equal.
  rewrite <- !Ropp_mult_distr_r, !opp. ring.
Qed.
Lemma weight_in z : -1 <= z <= 1 -> 0 <= rnd (1 / 2 * rnd (1 - z)) <= 1 /\ 0 <= rnd (1 / 2 * rnd (1 + z)) <= 1.
Proof.
  intros Hz. rewrite !half, !idem. destruct HD as (_ & _ & _ & _ & H2 & _ & R1). assert (T : rnd 2 = 2) by (replace 2 with (2 * 1) by ring; rewrite H2, R1; reflexivity).
  assert (A0 := mono 0 (1 - z) ltac:(lra)). assert (A1 := mono (1 - z) 2 ltac:(lra)). assert (C0 := mono 0 (1 + z) ltac:(lra)). assert (C1 := mono (1 + z) 2 ltac:(lra)). rewrite r0 in *. rewrite T in *. lra.
Qed.
Lemma chpf_mono Zl Zr i j : Zl <= 0 <= Zr -> (i <= j)%nat -> (j < N)%nat -> chpf Zl Zr i <= chpf Zl Zr j.
Proof.
  intros HZ H Hj. assert (S := sine_mono i j H Hj). unfold chpf. cbv zeta. rewrite !half, !idem. set (a := sine (angf i)) in *. set (b := sine (angf j)) in *.
  assert (A := mono (1 - b) (1 - a) ltac:(lra)). assert (C := mono (1 + a) (1 + b) ltac:(lra)). apply mono. apply Rplus_le_compat; apply mono; nra.
Qed.
Lemma chpf_inside Zl Zr i : Zl <= 0 <= Zr -> rnd Zl = Zl -> rnd Zr = Zr -> (i < N)%nat -> Zl <= chpf Zl Zr i <= Zr.
Proof.
  intros HZ El Er Hi. destruct (weight_in _ (sine_in i Hi)) as (W1 & W2). unfold chpf. cbv zeta.
  set (a := rnd (1 / 2 * rnd (1 - sine (angf i)))) in *. set (b := rnd (1 / 2 * rnd (1 + sine (angf i)))) in *.
  assert (A1 := mono Zl (a * Zl) ltac:(nra)). assert (A2 := mono (a * Zl) 0 ltac:(nra)). assert (B1 := mono 0 (b * Zr) ltac:(nra)). assert (B2 := mono (b * Zr) Zr ltac:(nra)).
  rewrite r0, El, Er in *. split; [rewrite <- El at 1|rewrite <- Er at 2]; apply mono; lra.
Qed.
Lemma angf_err i : (i < N)%nat -> Rabs (angf i - ang N i) <= gamma u 3 * 2.
Proof.
  intros Hi. assert (H3 : INR 3 * u < 1) by (destruct HD as (H & _); cbn [INR]; lra). unfold angf. rewrite half, idem.
  assert (HDn : INR N <> 0) by (apply not_0_INR; lia).
  destruct (rw PI) as (t1 & W1 & ->). destruct (rw (1 / 2 * (PI * t1) / INR N)) as (t2 & W2 & ->).
  destruct (rw (1 / 2 * (PI * t1) / INR N * t2 * IZR (-1 * Z.of_nat N + 1 + 2 * Z.of_nat i))) as (t3 & W3 & ->).
  replace (1 / 2 * (PI * t1) / INR N * t2 * IZR (-1 * Z.of_nat N + 1 + 2 * Z.of_nat i) * t3 - ang N i) with ((t1 * t2 * t3 - 1) * ang N i).
  2: { unfold ang. rewrite !plus_IZR, !mult_IZR, <- !INR_IZR_INZ. field. exact HDn. }
  assert (G : Rabs (t1 * t2 * t3 - 1) <= gamma u 3).
  { apply (within_gamma u U); [exact H3|]. change 3%nat with (1 + 1 + 1)%nat. repeat apply (within_mul u U); assumption. }
  assert (R := ang_range N i Hi). assert (P4 := PI_4). assert (Q : Rabs (ang N i) <= 2) by (apply Rabs_le; lra).
  rewrite Rabs_mult. apply Rmult_le_compat; try apply Rabs_pos; assumption.
Qed.
Lemma chpf_err Zl Zr i : (i < N)%nat -> Rabs (chpf Zl Zr i - chpt N Zl Zr i) <= (2 * gamma u 3 + v / 2) * (Rabs Zl + Rabs Zr).
Proof.
  intros Hi. assert (H3 : INR 3 * u < 1) by (destruct HD as (H & _); cbn [INR]; lra).
  assert (Z1 := sine_in i Hi). assert (E : Rabs (sine (angf i) - sin (ang N i)) <= v + gamma u 3 * 2).
  { replace (sine (angf i) - sin (ang N i)) with (sine (angf i) - sin (angf i) + (sin (angf i) - sin (ang N i))) by ring.
    apply Rle_trans with (1 := Rabs_triang _ _). apply Rplus_le_compat; [apply (proj1 HS _ (angf_abs i Hi))|]. apply Rle_trans with (1 := sin_lip _ _). apply angf_err. exact Hi. }
  unfold chpf, chpt. cbv zeta. rewrite !half, !idem. set (z := sine (angf i)) in *. set (s := sin (ang N i)) in *.
  destruct (rw (1 - z)) as (t1 & W1 & ->). destruct (rw (1 + z)) as (t2 & W2 & ->).
  destruct (rw (1 / 2 * ((1 - z) * t1) * Zl)) as (t3 & W3 & ->). destruct (rw (1 / 2 * ((1 + z) * t2) * Zr)) as (t4 & W4 & ->).
  destruct (rw (1 / 2 * ((1 - z) * t1) * Zl * t3 + 1 / 2 * ((1 + z) * t2) * Zr * t4)) as (t5 & W5 & ->).
  set (g := gamma u 3) in *.
  assert (G0 : 0 <= g) by (apply (gamma_nonneg u U); exact H3).
  assert (G1 : Rabs (t1 * t3 * t5 - 1) <= g) by (apply (within_gamma u U); [exact H3|]; change 3%nat with (1 + 1 + 1)%nat; repeat apply (within_mul u U); assumption).
  assert (G2 : Rabs (t2 * t4 * t5 - 1) <= g) by (apply (within_gamma u U); [exact H3|]; change 3%nat with (1 + 1 + 1)%nat; repeat apply (within_mul u U); assumption).
  replace (_ - _) with (((1 - z) / 2 * (t1 * t3 * t5 - 1) + (s - z) / 2) * Zl + ((1 + z) / 2 * (t2 * t4 * t5 - 1) + (z - s) / 2) * Zr) by field.
  assert (K : forall w e, 0 <= w <= 1 -> Rabs e <= g -> forall y, Rabs y <= v + g * 2 -> Rabs (w * e + y / 2) <= 2 * g + v / 2).
  { intros w e Hw He y Hy. apply Rle_trans with (1 := Rabs_triang _ _). unfold Rdiv. rewrite !Rabs_mult, (Rabs_pos_eq w), (Rabs_pos_eq (/ 2)) by lra. assert (0 <= Rabs e) by apply Rabs_pos. nra. }
  assert (E' : Rabs (s - z) <= v + g * 2) by (rewrite Rabs_minus_sym; exact E).
  assert (K1 := K ((1 - z) / 2) _ ltac:(lra) G1 _ E'). assert (K2 := K ((1 + z) / 2) _ ltac:(lra) G2 _ E).
  assert (P1 := Rabs_pos Zl). assert (P2 := Rabs_pos Zr).
  apply Rle_trans with (1 := Rabs_triang _ _). rewrite !Rabs_mult, Rmult_plus_distr_l. apply Rplus_le_compat; apply Rmult_le_compat_r; assumption.
Qed.
End P.
