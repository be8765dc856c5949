(** Three-term recurrences q(n+1) = (1 + t n) X q(n) - t n q(n-1) with 0 <= t n <= 1, t 0 = 0: bounds on [-1,1] and the
    accumulation of local errors.  The quantity a^2 - 2 X a b + b^2 of two consecutive values does not grow. *)
From Coq Require Import Reals Arith Lra Lia Psatz.
From Flocq Require Import Core.
Open Scope R_scope.

Section ThreeTerm.
Context (t : nat -> R) (X : R).
Hypothesis Ht : forall n, 0 <= t n <= 1.
Hypothesis HX : -1 <= X <= 1.

Definition en (a b : R) : R := a * a - 2 * X * a * b + b * b.
Lemma en_r a b : en a b = (a - X * b) * (a - X * b) + (1 - X * X) * (b * b).
Proof. unfold en. ring. Qed.
Lemma en_l a b : en a b = (b - X * a) * (b - X * a) + (1 - X * X) * (a * a).
Proof. unfold en. ring. Qed.
Lemma XX : 0 <= 1 - X * X.
Proof. nra. Qed.
Lemma en_nonneg a b : 0 <= en a b.
Proof. rewrite en_r. apply Rplus_le_le_0_compat; [apply Rle_0_sqr|apply Rmult_le_pos; [apply XX|apply Rle_0_sqr]]. Qed.
(** one step does not increase it *)
Lemma en_step n a b : en ((1 + t n) * X * a - t n * b) a <= en a b.
Proof.
  rewrite (en_r _ a), (en_l a b). replace ((1 + t n) * X * a - t n * b - X * a) with (- t n * (b - X * a)) by ring.
  apply Rplus_le_compat_r. assert (T := Ht n). assert (Sq := Rle_0_sqr (b - X * a)). unfold Rsqr in Sq. set (s := (b - X * a)) in *.
  replace (- t n * s * (- t n * s)) with (t n * t n * (s * s)) by ring. assert (t n * t n <= 1) by nra. nra.
Qed.
Lemma sq_le a b : 0 <= b -> a * a <= b * b -> Rabs a <= b.
Proof. intros Hb H. apply Rabs_le. split; nra. Qed.
Lemma en_first a b r : 0 <= r -> en a b <= r * r -> Rabs (a - X * b) <= r.
Proof.
  intros Hr H. apply sq_le; [exact Hr|]. rewrite en_r in H. assert (0 <= (1 - X * X) * (b * b)) by (apply Rmult_le_pos; [apply XX|apply Rle_0_sqr]). lra.
Qed.
Lemma en_second a b r : en a b <= r * r -> (1 - X * X) * (a * a) <= r * r.
Proof. intros H. rewrite en_l in H. assert (Sq := Rle_0_sqr (b - X * a)). unfold Rsqr in Sq. lra. Qed.
(** a perturbed step *)
Lemma en_pert n a b d r e : 0 <= r -> Rabs d <= e -> en a b <= r * r ->
  en ((1 + t n) * X * a - t n * b + d) a <= (r + e) * (r + e).
Proof.
  intros Hr Hd H. set (g := (1 + t n) * X * a - t n * b). assert (S : en g a <= r * r) by (eapply Rle_trans; [apply en_step|exact H]).
  assert (F := en_first g a r Hr S). replace (en (g + d) a) with (en g a + 2 * (d * (g - X * a)) + d * d) by (unfold en; ring).
  assert (He : 0 <= e) by (eapply Rle_trans; [apply Rabs_pos|exact Hd]).
  assert (P : d * (g - X * a) <= e * r).
  { eapply Rle_trans; [apply Rle_abs|]. rewrite Rabs_mult. apply Rmult_le_compat; try apply Rabs_pos; assumption. }
  assert (Q : d * d <= e * e) by (assert (A := Rabs_le_inv _ _ Hd); nra).
  lra.
Qed.

(** the exact sequence, indexed so that q 0 is the (-1)st term *)
Context (q : nat -> R).
Hypothesis q0 : q 0%nat = 0.
Hypothesis q1 : q 1%nat = 1.
Hypothesis t0 : t 0%nat = 0.
Hypothesis qS : forall n, q (S (S n)) = (1 + t n) * X * q (S n) - t n * q n.

Lemma en_exact n : en (q (S (S n))) (q (S n)) <= 1 - X * X.
Proof.
  induction n as [|n IH].
  - rewrite qS, q1, q0, t0. unfold en. lra.
  - rewrite qS. eapply Rle_trans; [apply en_step|exact IH].
Qed.
Theorem q_bound n : Rabs (q n) <= 1.
Proof.
  destruct n as [|n]; [rewrite q0, Rabs_R0; lra|]. induction n as [|n IH]; [rewrite q1, Rabs_R1; lra|].
  assert (E := en_exact n). assert (D := XX). destruct (Req_dec (X * X) 1) as [E1|N1].
  - rewrite en_r in E. assert (Sq := Rle_0_sqr (q (S (S n)) - X * q (S n))). unfold Rsqr in Sq.
    replace (1 - X * X) with 0 in E by lra. assert (Z : (q (S (S n)) - X * q (S n)) * (q (S (S n)) - X * q (S n)) = 0) by lra.
    apply Rmult_integral in Z. assert (Z' : q (S (S n)) = X * q (S n)) by (destruct Z; lra). rewrite Z', Rabs_mult.
    assert (Rabs X <= 1) by (apply Rabs_le; lra). assert (0 <= Rabs (q (S n))) by apply Rabs_pos. assert (0 <= Rabs X) by apply Rabs_pos. nra.
  - assert (P : 0 < 1 - X * X) by lra. rewrite en_l in E. assert (Sq := Rle_0_sqr (q (S n) - X * q (S (S n)))). unfold Rsqr in Sq.
    apply sq_le; [lra|]. apply Rmult_le_reg_l with (1 - X * X); [exact P|]. lra.
Qed.

(** a computed sequence: each step with relative errors at most g in the two products *)
Context (N : nat) (h : nat -> R) (g : R).
Hypothesis Hg : 0 <= g.
Hypothesis h0 : h 0%nat = 0.
Hypothesis h1 : h 1%nat = 1.
Hypothesis hS : forall n, (n < N)%nat -> exists a b, Rabs (a - 1) <= g /\ Rabs (b - 1) <= g /\
  h (S (S n)) = (1 + t n) * X * h (S n) * a - t n * h n * b.

Lemma local_error n M : (n < N)%nat -> Rabs (h (S n)) <= M -> Rabs (h n) <= M -> exists d, Rabs d <= 3 * g * M /\
  h (S (S n)) - q (S (S n)) = (1 + t n) * X * (h (S n) - q (S n)) - t n * (h n - q n) + d.
Proof.
  intros Hn M1 M0. destruct (hS n Hn) as (a & b & A & B & E). exists ((1 + t n) * X * h (S n) * (a - 1) - t n * h n * (b - 1)). split.
  - eapply Rle_trans; [apply Rabs_triang|]. rewrite Rabs_Ropp, !Rabs_mult. assert (T := Ht n). assert (G := Hg).
    rewrite (Rabs_right (1 + t n)) by lra. rewrite (Rabs_right (t n)) by lra. assert (Xa : Rabs X <= 1) by (apply Rabs_le; lra).
    assert (Hm : 0 <= M) by (eapply Rle_trans; [apply Rabs_pos|exact M0]).
    assert (U : (1 + t n) * Rabs X * Rabs (h (S n)) * Rabs (a - 1) <= 2 * 1 * M * g).
    { repeat apply Rmult_le_compat; try apply Rabs_pos; try assumption; try lra; repeat apply Rmult_le_pos; try apply Rabs_pos; lra. }
    assert (V : t n * Rabs (h n) * Rabs (b - 1) <= 1 * M * g).
    { repeat apply Rmult_le_compat; try apply Rabs_pos; try assumption; try lra; repeat apply Rmult_le_pos; try apply Rabs_pos; lra. }
    lra.
  - rewrite E, qS. ring.
Qed.

Theorem error_bound : 3 * g * (INR N * (INR N + 1)) <= 1 -> forall n, (n <= N)%nat ->
  Rabs (h (S n) - q (S n)) <= 3 * g * (INR n * (INR n + 1)) /\
  (1 - X * X) * ((h (S n) - q (S n)) * (h (S n) - q (S n))) <= (6 * g * INR n) * (6 * g * INR n).
Proof.
  intros HN. assert (G := Hg).
  assert (K : forall n, (n <= N)%nat -> Rabs (h n - q n) <= 1 /\ Rabs (h (S n) - q (S n)) <= 3 * g * (INR n * (INR n + 1)) /\
    en (h (S n) - q (S n)) (h n - q n) <= (6 * g * INR n) * (6 * g * INR n)).
  { induction n as [|n IH]; intros L.
    - rewrite h0, q0, h1, q1. replace (0 - 0) with 0 by ring. replace (1 - 1) with 0 by ring. rewrite Rabs_R0. unfold en. cbn [INR]. split; [lra|]. split; lra.
    - destruct (IH ltac:(lia)) as (I0 & I1 & I2).
      assert (Nn : 0 <= INR n) by apply pos_INR. assert (Ln : INR n <= INR N) by (apply le_INR; lia).
      assert (I1' : Rabs (h (S n) - q (S n)) <= 1).
      { eapply Rle_trans; [exact I1|]. eapply Rle_trans; [|exact HN]. apply Rmult_le_compat_l; [lra|]. apply Rmult_le_compat; lra. }
      assert (M1 : Rabs (h (S n)) <= 2).
      { replace (h (S n)) with ((h (S n) - q (S n)) + q (S n)) by ring. eapply Rle_trans; [apply Rabs_triang|]. assert (B := q_bound (S n)). lra. }
      assert (M0 : Rabs (h n) <= 2).
      { replace (h n) with ((h n - q n) + q n) by ring. eapply Rle_trans; [apply Rabs_triang|]. assert (B := q_bound n). lra. }
      destruct (local_error n 2 ltac:(lia) M1 M0) as (d & D & E). replace (3 * g * 2) with (6 * g) in D by ring. rewrite E.
      assert (R0 : 0 <= 6 * g * INR n) by (apply Rmult_le_pos; lra).
      assert (P := en_pert n _ _ d (6 * g * INR n) (6 * g) R0 D I2). rewrite S_INR.
      replace (6 * g * (INR n + 1)) with (6 * g * INR n + 6 * g) by ring.
      assert (R1 : 0 <= 6 * g * INR n + 6 * g) by lra.
      assert (F := en_first _ _ _ R1 P). split; [exact I1'|]. split; [|exact P].
      set (v := (1 + t n) * X * (h (S n) - q (S n)) - t n * (h n - q n) + d) in *. set (w := h (S n) - q (S n)) in *.
      replace v with ((v - X * w) + X * w) by ring. eapply Rle_trans; [apply Rabs_triang|]. rewrite (Rabs_mult X w).
      assert (Xa : Rabs X <= 1) by (apply Rabs_le; lra). assert (0 <= Rabs w) by apply Rabs_pos. assert (Rabs X * Rabs w <= 1 * Rabs w) by (apply Rmult_le_compat_r; assumption).
      lra. }
  intros n L. destruct (K n L) as (_ & K1 & K2). split; [exact K1|]. apply (en_second _ (h n - q n)). exact K2.
Qed.
End ThreeTerm.
