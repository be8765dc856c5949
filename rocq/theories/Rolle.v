(** Error of Lagrange interpolation, in value and in slope at a vertex (library; models nothing in /repo). *)
From Coq Require Import Reals Lra Lia Arith.
Require Import Verif.RSum Verif.RDer Verif.Poly Verif.Spec_Lagrange Verif.Lagrange_Math.
Open Scope R_scope.

(** F 1, F 2, ..., F n are the successive derivatives of F 0 *)
Definition derivs (n : nat) (F : nat -> R -> R) : Prop := forall k t, (k < n)%nat -> derivable_pt_lim (F k) t (F (S k) t).

Lemma finite_choice n (P : nat -> R -> Prop) : (forall i, (i < n)%nat -> exists y, P i y) -> exists y, forall i, (i < n)%nat -> P i (y i).
Proof.
  induction n as [|n IH]; intros H; [exists (fun _ => 0); intros; lia|].
  destruct IH as (y & Hy); [intros; apply H; lia|]. destruct (H n ltac:(lia)) as (z & Hz).
  exists (fun i => if Nat.eqb i n then z else y i). intros i Hi. destruct (Nat.eqb_spec i n) as [->|]; [exact Hz|apply Hy; lia].
Qed.

(** between consecutive zeros there is a zero of the derivative *)
Lemma rolle_step f f' n (x : nat -> R) : (forall t, derivable_pt_lim f t (f' t)) -> (forall i, (i < n)%nat -> x i < x (S i)) -> (forall i, (i <= n)%nat -> f (x i) = 0) ->
  exists y, forall i, (i < n)%nat -> x i < y i < x (S i) /\ f' (y i) = 0.
Proof.
  intros D Hx Hz. apply (finite_choice n (fun i y => x i < y < x (S i) /\ f' y = 0)). intros i Hi.
  destruct (MVT_cor2 f f' (x i) (x (S i)) (Hx i Hi)) as (c & E & Hc); [intros; apply D|].
  exists c. split; [exact Hc|]. rewrite !Hz in E by lia. assert (Hp := Hx i Hi). apply Rmult_eq_reg_r with (x (S i) - x i); lra.
Qed.
(** n + 1 zeros: the n-th derivative has one between them *)
Lemma rolle_many n : forall F x, derivs n F -> (forall i, (i < n)%nat -> x i < x (S i)) -> (forall i, (i <= n)%nat -> F 0%nat (x i) = 0) ->
  exists z, x 0%nat <= z <= x n /\ F n z = 0.
Proof.
  induction n as [|n IH]; intros F x D Hx Hz; [exists (x 0%nat); split; [lra|apply Hz; lia]|].
  destruct (rolle_step (F 0%nat) (F 1%nat) (S n) x) as (y & Hy); [intros t; apply D; lia|exact Hx|exact Hz|].
  destruct (IH (fun k => F (S k)) y) as (z & B & E).
  - intros k t Hk. apply D. lia.
  - intros i Hi. destruct (Hy i ltac:(lia)) as (A & _). destruct (Hy (S i) ltac:(lia)) as (B & _). lra.
  - intros i Hi. apply Hy. lia.
  - exists z. split; [|exact E]. destruct (Hy 0%nat ltac:(lia)) as (A & _). destruct (Hy n ltac:(lia)) as (C & _). lra.
Qed.

(** the derivatives of a polynomial with coefficients a *)
Definition dcoef (a : nat -> R) : nat -> R := fun i => INR (S i) * a (S i).
Fixpoint dcoefs (k : nat) (a : nat -> R) : nat -> R := match k with O => a | S k => dcoef (dcoefs k a) end.
Definition pval (n : nat) (a : nat -> R) (x : R) : R := rsum n (fun i => a i * x ^ i).
Lemma pval_der n a x : derivable_pt_lim (pval (S n) a) x (pval n (dcoef a) x).
Proof.
  unfold pval. eapply der_value; [|apply (der_rsum (S n) (fun i t => a i * t ^ i) (fun i => a i * (INR i * x ^ pred i))); intros i _; apply der_scal, derivable_pt_lim_pow].
  rewrite rsum_S_l. replace (INR 0) with 0 by reflexivity. rewrite Rmult_0_l, Rmult_0_r, Rplus_0_l. apply rsum_ext. intros i Hi. unfold dcoef. cbn [pred]. ring.
Qed.
Lemma pval_derivs n a : derivs n (fun k => pval (S n - k) (dcoefs k a)).
Proof. intros k t Hk. replace (S n - k)%nat with (S (S n - S k)) by lia. apply pval_der. Qed.
Lemma dcoefs_fact k : forall a, dcoefs k a 0%nat = INR (fact k) * a k.
Proof.
  assert (G : forall a i, dcoefs k a i * INR (fact i) = INR (fact (k + i)) * a (k + i)%nat).
  { induction k as [|k IH]; intros a i; [cbn [dcoefs Nat.add]; ring|]. cbn [dcoefs]. unfold dcoef.
    replace (INR (S i) * dcoefs k a (S i) * INR (fact i)) with (dcoefs k a (S i) * INR (fact (S i))) by (rewrite fact_simpl, mult_INR; ring).
    rewrite IH. replace (k + S i)%nat with (S k + i)%nat by lia. reflexivity. }
  intros a. specialize (G a 0%nat). cbn [fact INR] in G. rewrite Nat.add_0_r in G. lra.
Qed.
Lemma pval_top n a x : pval (S n - n) (dcoefs n a) x = INR (fact n) * a n.
Proof. replace (S n - n)%nat with 1%nat by lia. unfold pval. cbn [rsum]. rewrite dcoefs_fact. cbn [pow]. ring. Qed.

Lemma npoly_monic n Z : exists r, forall x, npoly n Z x = pval (S n) r x /\ r n = 1.
Proof.
  assert (G : exists q, poly_lt n q /\ forall x, npoly n Z x = x ^ n + q x).
  { induction n as [|n (q & Hq & E)]; [exists (fun _ => 0); split; [apply poly_zero|intros; unfold npoly; cbn; ring]|].
    exists (fun x => x * q x + ((- Z n) * x ^ n + (- Z n) * q x)). split.
    - apply poly_add; [apply poly_mulX, Hq|]. apply poly_add; [|apply poly_scal, (poly_mono n); [lia|exact Hq]].
      exists (fun k => if Nat.eqb k n then - Z n else 0). intros x. rewrite (rsum_single (S n) n); [rewrite Nat.eqb_refl; ring|lia|]. intros i Hi Hne. destruct (Nat.eqb_spec i n); [lia|ring].
    - intros x. unfold npoly in *. cbn [rprod]. rewrite E. cbn [pow]. ring. }
  destruct G as (q & (b & Hb) & E). exists (fun k => if Nat.eqb k n then 1 else b k). intros x. rewrite E. split; [|rewrite Nat.eqb_refl; reflexivity].
  unfold pval. cbn [rsum]. rewrite Nat.eqb_refl, Hb. rewrite (rsum_ext n (fun i => (if Nat.eqb i n then 1 else b i) * x ^ i) (fun k => b k * x ^ k)); [ring|].
  intros i Hi. destruct (Nat.eqb_spec i n); [lia|reflexivity].
Qed.

(** interpolant plus K times the node polynomial is a polynomial of degree n with leading coefficient K *)
Lemma shifted n Z c K : exists a, a n = K /\ forall x, pval (S n) a x = interp n Z c x + K * npoly n Z x.
Proof.
  destruct (interp_poly n Z c) as (b & Hb). destruct (npoly_monic n Z) as (r & Hr).
  exists (fun k => if Nat.eqb k n then K else b k + K * r k). split; [rewrite Nat.eqb_refl; reflexivity|]. intros x.
  destruct (Hr x) as (-> & Hr1). rewrite Hb. unfold pval. cbn [rsum]. rewrite Nat.eqb_refl, Hr1.
  rewrite (rsum_ext n (fun i => (if Nat.eqb i n then K else b i + K * r i) * x ^ i) (fun i => b i * x ^ i + K * (r i * x ^ i))).
  - rewrite rsum_plus, rsum_scal_l. ring.
  - intros i Hi. destruct (Nat.eqb_spec i n); [lia|ring].
Qed.
Lemma npoly_vertex n Z i : (i < n)%nat -> npoly n Z (Z i) = 0.
Proof. intros H. apply (rprod_zero n i); [exact H|ring]. Qed.
Lemma npoly_slope n Z i : (i < n)%nat -> derivable_pt_lim (npoly n Z) (Z i) (rprod n (fun j => if Nat.eqb j i then 1 else Z i - Z j)).
Proof.
  intros Hi. unfold npoly. eapply der_value; [|apply (der_rprod n (fun j t => t - Z j) (fun _ => 1) (Z i))].
  - rewrite (rsum_single n i); [ring|exact Hi|]. intros k Hk Hne. rewrite (rprod_zero n i); [ring|exact Hi|]. destruct (Nat.eqb_spec i k); [congruence|ring].
  - intros j Hj. der_tac. ring.
Qed.

Definition increasing (n : nat) (Z : nat -> R) : Prop := forall i, (S i < n)%nat -> Z i < Z (S i).
Lemma increasing_lt n Z i j : increasing n Z -> (i < j < n)%nat -> Z i < Z j.
Proof. intros H. induction j as [|j IH]; intros Hij; [lia|]. destruct (Nat.eq_dec i j) as [->|]; [apply H; lia|]. apply Rlt_trans with (Z j); [apply IH; lia|apply H; lia]. Qed.
Lemma increasing_distinct n Z : increasing n Z -> distinct n Z.
Proof. intros H i j Hi Hj N. destruct (Nat.lt_ge_cases i j); [assert (T := increasing_lt n Z i j H ltac:(lia))|assert (T := increasing_lt n Z j i H ltac:(lia))]; lra. Qed.

Lemma derivs_sub n F G : derivs n F -> derivs n G -> derivs n (fun k t => F k t - G k t).
Proof. intros A B k t Hk. apply der_sub; [apply A|apply B]; exact Hk. Qed.

(** slope at a vertex *)
Theorem interp_slope_error p Z F i : let n := S p in increasing n Z -> derivs n F -> (i < n)%nat ->
  exists z, F 1%nat (Z i) - rsum n (fun m => F 0%nat (Z m) * dell n Z m (Z i)) = F n z / INR (fact n) * rprod n (fun j => if Nat.eqb j i then 1 else Z i - Z j).
Proof.
  intros n Inc D Hi. assert (Dis := increasing_distinct n Z Inc).
  set (w := rprod n (fun j => if Nat.eqb j i then 1 else Z i - Z j)).
  assert (Hw : w <> 0). { apply rprod_neq0. intros j Hj. destruct (Nat.eqb_spec j i); [lra|]. assert (N := Dis i j Hi Hj ltac:(congruence)). lra. }
  set (s := rsum n (fun m => F 0%nat (Z m) * dell n Z m (Z i))). set (K := (F 1%nat (Z i) - s) / w).
  destruct (shifted n Z (fun m => F 0%nat (Z m)) K) as (a & Ha & Ea).
  set (G := fun k t => F k t - pval (S n - k) (dcoefs k a) t).
  assert (DG : derivs n G) by (apply derivs_sub; [exact D|apply pval_derivs]).
  assert (Z0 : forall m, (m <= p)%nat -> G 0%nat (Z m) = 0).
  { intros m Hm. unfold G. cbn [dcoefs]. rewrite Nat.sub_0_r, Ea, interp_node, npoly_vertex by (assumption || (unfold n; lia)). ring. }
  assert (Z1 : G 1%nat (Z i) = 0).
  { unfold G. assert (E : pval (S n - 1) (dcoefs 1 a) (Z i) = s + K * w).
    { apply (der_unique (pval (S n) a) (Z i)).
      - replace (S n - 1)%nat with n by lia. apply pval_der.
      - apply (der_ext (fun x => interp n Z (fun m => F 0%nat (Z m)) x + K * npoly n Z x)); [intros; symmetry; apply Ea|].
        apply der_add; [apply interp_der|apply der_scal, npoly_slope; exact Hi]. }
    rewrite E. unfold K. field. exact Hw. }
  destruct (rolle_step (G 0%nat) (G 1%nat) p Z) as (y & Hy); [intros t; apply DG; unfold n; lia|intros; apply Inc; unfold n; lia|exact Z0|].
  set (x := fun m => if (m <? i)%nat then y m else if (m =? i)%nat then Z i else y (m - 1)%nat).
  destruct (rolle_many p (fun k => G (S k)) x) as (z & _ & Ez).
  - intros k t Hk. apply DG. unfold n. lia.
  - intros m Hm. unfold x. destruct (Nat.ltb_spec m i), (Nat.ltb_spec (S m) i), (Nat.eqb_spec m i), (Nat.eqb_spec (S m) i); try lia.
    + destruct (Hy m ltac:(lia)) as (A & _). destruct (Hy (S m) ltac:(lia)) as (B & _). lra.
    + destruct (Hy m ltac:(lia)) as (A & _). replace (Z i) with (Z (S m)) by (f_equal; lia). lra.
    + replace (S m - 1)%nat with m by lia. subst m. destruct (Hy i ltac:(lia)) as (A & _). lra.
    + replace (S m - 1)%nat with m by lia. destruct (Hy m ltac:(lia)) as (A & _). destruct (Hy (m - 1)%nat ltac:(lia)) as (B & _). replace (S (m - 1)) with m in B by lia. lra.
  - intros m Hm. unfold x. destruct (Nat.ltb_spec m i); [apply Hy; unfold n in *; lia|]. destruct (Nat.eqb_spec m i); [exact Z1|apply Hy; lia].
  - exists z. unfold G in Ez. fold n in Ez. rewrite pval_top, Ha in Ez. fold s. fold w.
    assert (Ff : INR (fact n) <> 0) by (apply INR_fact_neq_0). replace (F n z) with (INR (fact n) * K) by lra. unfold K. field. split; assumption.
Qed.

(** value *)
Theorem interp_value_error p Z F t : let n := S p in increasing n Z -> derivs n F ->
  exists z, F 0%nat t - interp n Z (fun m => F 0%nat (Z m)) t = F n z / INR (fact n) * npoly n Z t.
Proof.
  intros n Inc D. assert (Dis := increasing_distinct n Z Inc). assert (Ff : INR (fact n) <> 0) by (apply INR_fact_neq_0).
  assert (Dec : forall m, (m <= n)%nat -> (exists i, (i < m)%nat /\ t = Z i) \/ forall i, (i < m)%nat -> t <> Z i).
  { induction m as [|m IH]; intros Hm; [right; intros; lia|]. destruct IH as [(i & Hi & E)|N]; [lia|left; exists i; split; [lia|exact E]|].
    destruct (Req_dec t (Z m)) as [E|E]; [left; exists m; split; [lia|exact E]|right]. intros i Hi. destruct (Nat.eq_dec i m) as [->|]; [exact E|apply N; lia]. }
  destruct (Dec n (le_n _)) as [(i & Hi & ->)|N].
  - exists (Z i). rewrite interp_node, npoly_vertex by assumption. ring.
  - assert (Hw : npoly n Z t <> 0) by (apply npoly_neq0; intros i Hi; specialize (N i Hi); lra).
    set (K := (F 0%nat t - interp n Z (fun m => F 0%nat (Z m)) t) / npoly n Z t).
    destruct (shifted n Z (fun m => F 0%nat (Z m)) K) as (a & Ha & Ea).
    set (G := fun k u => F k u - pval (S n - k) (dcoefs k a) u).
    assert (DG : derivs n G) by (apply derivs_sub; [exact D|apply pval_derivs]).
    assert (Z0 : forall m, (m < n)%nat -> G 0%nat (Z m) = 0).
    { intros m Hm. unfold G. cbn [dcoefs]. rewrite Nat.sub_0_r, Ea, interp_node, npoly_vertex by assumption. ring. }
    assert (Zt : G 0%nat t = 0).
    { unfold G. cbn [dcoefs]. rewrite Nat.sub_0_r, Ea. unfold K. field. exact Hw. }
    (* the number of vertices below t *)
    assert (Pos : exists q, (q <= n)%nat /\ (forall m, (m < q)%nat -> Z m < t) /\ (forall m, (q <= m < n)%nat -> t < Z m)).
    { assert (W : forall q0, (q0 <= n)%nat -> exists q, (q <= q0)%nat /\ (forall m, (m < q)%nat -> Z m < t) /\ (forall m, (q <= m < q0)%nat -> t < Z m)).
      { induction q0 as [|q0 IH]; intros Hq0; [exists 0%nat; split; [lia|split; intros; lia]|]. destruct IH as (q & Hq & A & B); [lia|].
        destruct (Rlt_le_dec (Z q0) t) as [L|L].
        - exists (S q0). split; [lia|]. split; [|intros; lia]. intros m Hm. destruct (Nat.eq_dec m q0) as [->|]; [exact L|]. apply Rlt_trans with (Z q0); [apply (increasing_lt n); [exact Inc|lia]|exact L].
        - exists q. split; [lia|]. split; [exact A|]. intros m Hm. destruct (Nat.eq_dec m q0) as [->|]; [|apply B; lia]. specialize (N q0 ltac:(lia)). lra. }
      apply W. lia. }
    destruct Pos as (q & Hq & A & B).
    set (x := fun m => if (m <? q)%nat then Z m else if (m =? q)%nat then t else Z (m - 1)%nat).
    destruct (rolle_many n G x DG) as (z & _ & Ez).
    + intros m Hm. unfold x. destruct (Nat.ltb_spec m q), (Nat.ltb_spec (S m) q), (Nat.eqb_spec m q), (Nat.eqb_spec (S m) q); try lia.
      * apply Inc; lia.
      * apply A; lia.
      * replace (S m - 1)%nat with m by lia. apply B; lia.
      * replace (S m - 1)%nat with m by lia. apply (increasing_lt n); [exact Inc|lia].
    + intros m Hm. unfold x. destruct (Nat.ltb_spec m q); [apply Z0; lia|]. destruct (Nat.eqb_spec m q); [exact Zt|apply Z0; lia].
    + exists z. unfold G in Ez. rewrite pval_top, Ha in Ez. replace (F n z) with (INR (fact n) * K) by lra. unfold K. field. split; assumption.
Qed.
