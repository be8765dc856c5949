From Coq Require Import Reals ZArith Arith Lia Lra.
Require Import Verif.Base Verif.RBase Verif.Model_Points.
Open Scope R_scope.

Lemma equi_ok N Zl Zr Z0 : (2 <= N)%nat -> exists Z, equispaced_points N Zl Zr Z0 = Ok Z /\
  (forall i, (i < N)%nat -> Z i = Zl + INR i / INR (N - 1) * (Zr - Zl)) /\ (forall i, (N <= i)%nat -> Z i = Z0 i).
Proof.
  intros HN. unfold equispaced_points.
  assert (HD : INR (N - 1) <> 0) by (apply not_0_INR; lia).
  edestruct (loop_inv (fun m (Z : nat -> R) => (forall i, (i < m)%nat -> Z i = Zl + INR i / INR (N - 1) * (Zr - Zl)) /\ forall i, (m <= i)%nat -> Z i = Z0 i) N) as (Z & E & H1 & H2).
  3: { exists Z. split; [exact E|]. split; assumption. }
  - split; [intros; lia|reflexivity].
  - intros k Z Hk (IH1 & IH2). rewrite rdiv_ok by exact HD. cbn [bind]. eexists. split; [reflexivity|]. split.
    + intros i Hi. destruct (Nat.eq_dec i k) as [->|Ne]; [apply fset_eq|]. rewrite fset_neq by exact Ne. apply IH1. lia.
    + intros i Hi. rewrite fset_neq by lia. apply IH2. lia.
Qed.

Lemma fill_up N (F : nat -> R) Z0 i : fold_up N (fun i Z => fset Z i (F i)) Z0 i = if Nat.ltb i N then F i else Z0 i.
Proof.
  induction N as [|N IH]; cbn [fold_up]; [reflexivity|]. unfold fset at 1.
  destruct (Nat.eqb_spec i N) as [->|]; [destruct (Nat.ltb_spec N (S N)); [reflexivity|lia]|].
  rewrite IH. destruct (Nat.ltb_spec i N), (Nat.ltb_spec i (S N)); try lia; reflexivity.
Qed.
Lemma map_up N (g : R -> R) Z0 i : fold_up N (fun i Z => fset Z i (g (Z i))) Z0 i = if Nat.ltb i N then g (Z0 i) else Z0 i.
Proof.
  induction N as [|N IH] in i |- *; cbn [fold_up]; [reflexivity|]. unfold fset at 1.
  destruct (Nat.eqb_spec i N) as [->|].
  - rewrite IH, Nat.ltb_irrefl. destruct (Nat.ltb_spec N (S N)); [reflexivity|lia].
  - rewrite IH. destruct (Nat.ltb_spec i N), (Nat.ltb_spec i (S N)); try lia; reflexivity.
Qed.

(** angle of point i *)
Definition ang (N i : nat) : R := PI / 2 * ((2 * INR i + 1 - INR N) / INR N).
Definition chpt (N : nat) (Zl Zr : R) (i : nat) : R := (Zl + Zr) / 2 + (Zr - Zl) / 2 * sin (ang N i).

Lemma cheb_ok N Zl Zr Z0 : (1 <= N)%nat -> exists Z, chebyshev_points N Zl Zr Z0 = Ok Z /\
  (forall i, (i < N)%nat -> Z i = chpt N Zl Zr i) /\ (forall i, (N <= i)%nat -> Z i = Z0 i).
Proof.
  intros HN. unfold chebyshev_points. destruct (Nat.eqb_spec N 0); [lia|].
  assert (HD : INR N <> 0) by (apply not_0_INR; lia). rewrite rdiv_ok by exact HD. cbn [bind]. cbv zeta.
  eexists. split; [reflexivity|].
  assert (V : forall i, fold_up N (fun i Z => fset Z i (1 / 2 * (1 - Z i) * Zl + 1 / 2 * (1 + Z i) * Zr))
     (fold_up N (fun i Z => fset Z i (sin (1 / 2 * PI / INR N * IZR (-1 * Z.of_nat N + 1 + 2 * Z.of_nat i)))) Z0) i
     = if Nat.ltb i N then chpt N Zl Zr i else Z0 i).
  { intros i. rewrite (map_up N (fun z => 1 / 2 * (1 - z) * Zl + 1 / 2 * (1 + z) * Zr)).
    rewrite (fill_up N (fun i => sin (1 / 2 * PI / INR N * IZR (-1 * Z.of_nat N + 1 + 2 * Z.of_nat i)))).
    destruct (Nat.ltb_spec i N); [|reflexivity]. unfold chpt.
    replace (1 / 2 * PI / INR N * IZR (-1 * Z.of_nat N + 1 + 2 * Z.of_nat i)) with (ang N i); [field|].
    unfold ang. rewrite !plus_IZR, !mult_IZR, <- !INR_IZR_INZ. field. exact HD. }
  split; intros i Hi; rewrite V; destruct (Nat.ltb_spec i N); try lia; reflexivity.
Qed.

Lemma ang_range N i : (i < N)%nat -> - (PI / 2) < ang N i < PI / 2.
Proof.
  intros Hi. assert (Pp := PI_RGT_0). assert (HN : 0 < INR N) by (apply lt_0_INR; lia).
  assert (H1 : INR i + 1 <= INR N) by (rewrite <- S_INR; apply le_INR; lia). assert (0 <= INR i) by apply pos_INR.
  unfold ang. set (q := (2 * INR i + 1 - INR N) / INR N).
  assert (Q : -1 < q < 1).
  { unfold q. split; apply (Rmult_lt_reg_r (INR N)); try exact HN; unfold Rdiv; rewrite ?Rmult_assoc, ?Rinv_l by lra; lra. }
  split; nra.
Qed.
Lemma ang_lt N i j : (i < j)%nat -> (j < N)%nat -> ang N i < ang N j.
Proof.
  intros Hi Hj. assert (Pp := PI_RGT_0). assert (HN : 0 < INR N) by (apply lt_0_INR; lia).
  assert (H1 := lt_INR _ _ Hi). unfold ang, Rdiv.
  apply Rmult_lt_compat_l; [lra|]. apply Rmult_lt_compat_r; [apply Rinv_0_lt_compat; exact HN|lra].
Qed.
Lemma chpt_lt N Zl Zr i j : Zl < Zr -> (i < j)%nat -> (j < N)%nat -> chpt N Zl Zr i < chpt N Zl Zr j.
Proof.
  intros HZ Hi Hj. assert (Ri := ang_range N i ltac:(lia)). assert (Rj := ang_range N j Hj).
  assert (S := sin_increasing_1 (ang N i) (ang N j) ltac:(lra) ltac:(lra) ltac:(lra) ltac:(lra) (ang_lt N i j Hi Hj)).
  unfold chpt. nra.
Qed.
Lemma chpt_inside N Zl Zr i : Zl < Zr -> (i < N)%nat -> Zl < chpt N Zl Zr i < Zr.
Proof.
  intros HZ Hi. assert (Ri := ang_range N i Hi).
  assert (S1 := sin_increasing_1 (ang N i) (PI / 2) ltac:(lra) ltac:(lra) ltac:(lra) ltac:(lra) ltac:(lra)).
  assert (S2 := sin_increasing_1 (- (PI / 2)) (ang N i) ltac:(lra) ltac:(lra) ltac:(lra) ltac:(lra) ltac:(lra)).
  rewrite sin_PI2 in S1. rewrite sin_neg, sin_PI2 in S2. unfold chpt. split; nra.
Qed.
Lemma chpt_sym N Zl Zr i : (i < N)%nat -> chpt N Zl Zr i + chpt N Zl Zr (N - 1 - i) = Zl + Zr.
Proof.
  intros Hi. unfold chpt. replace (ang N (N - 1 - i)) with (- ang N i).
  - rewrite sin_neg. field.
  - assert (HN : INR N <> 0) by (apply not_0_INR; lia). unfold ang. rewrite !minus_INR by lia. cbn [INR]. field. exact HN.
Qed.
Lemma chpt_cos N Zl Zr i : (i < N)%nat ->
  chpt N Zl Zr i = (Zl + Zr) / 2 - (Zr - Zl) / 2 * cos ((2 * INR i + 1) * PI / (2 * INR N)).
Proof.
  intros Hi. assert (HN : INR N <> 0) by (apply not_0_INR; lia). unfold chpt.
  replace (ang N i) with (- (PI / 2 - (2 * INR i + 1) * PI / (2 * INR N))) by (unfold ang; field; exact HN).
  rewrite sin_neg, sin_shift. ring.
Qed.
