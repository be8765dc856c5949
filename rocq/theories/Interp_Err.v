(** Error of Lagrange interpolation and of its derivatives on an interval, for vertices in any order (library; models nothing in /repo). *)
From Coq Require Import Reals Lra Lia Arith.
Require Import Verif.RSum Verif.RDer Verif.Poly Verif.Spec_Lagrange Verif.Lagrange_Math Verif.Rolle.
Open Scope R_scope.

(** F 1, ..., F n are the successive derivatives of F 0 on [a,b] *)
Definition derivs_on (a b : R) (n : nat) (F : nat -> R -> R) : Prop :=
  forall k t, (k < n)%nat -> a <= t <= b -> derivable_pt_lim (F k) t (F (S k) t).

Lemma position n (Y : nat -> R) v : increasing n Y -> (forall i, (i < n)%nat -> v <> Y i) ->
  exists q, (q <= n)%nat /\ (forall m, (m < q)%nat -> Y m < v) /\ (forall m, (q <= m < n)%nat -> v < Y m).
Proof.
  intros Inc N. assert (W : forall q0, (q0 <= n)%nat -> exists q, (q <= q0)%nat /\ (forall m, (m < q)%nat -> Y m < v) /\ (forall m, (q <= m < q0)%nat -> v < Y m)).
  { induction q0 as [|q0 IH]; intros Hq0; [exists 0%nat; split; [lia|split; intros; lia]|]. destruct IH as (q & Hq & A & B); [lia|].
    destruct (Rlt_le_dec (Y q0) v) as [L|L].
    - exists (S q0). split; [lia|]. split; [|intros; lia]. intros m Hm. destruct (Nat.eq_dec m q0) as [->|]; [exact L|]. apply Rlt_trans with (Y q0); [apply (increasing_lt n); [exact Inc|lia]|exact L].
    - exists q. split; [lia|]. split; [exact A|]. intros m Hm. destruct (Nat.eq_dec m q0) as [->|]; [|apply B; lia]. specialize (N q0 ltac:(lia)). lra. }
  apply W. lia.
Qed.

Lemma sort_points n (Z : nat -> R) : distinct n Z -> exists Y, increasing n Y /\ forall i, (i < n)%nat -> exists j, (j < n)%nat /\ Y i = Z j.
Proof.
  induction n as [|n IH]; intros D; [exists Z; split; [intros i Hi; lia|intros i Hi; lia]|].
  destruct IH as (Y & Inc & H); [intros i j Hi Hj; apply D; lia|].
  destruct (position n Y (Z n) Inc) as (q & Hq & A & B).
  { intros i Hi. destruct (H i Hi) as (j & Hj & ->). apply D; lia. }
  exists (fun m => if (m <? q)%nat then Y m else if (m =? q)%nat then Z n else Y (m - 1)%nat). split.
  - intros m Hm. destruct (Nat.ltb_spec m q), (Nat.ltb_spec (S m) q), (Nat.eqb_spec m q), (Nat.eqb_spec (S m) q); try lia.
    + apply Inc; lia.
    + apply A; lia.
    + replace (S m - 1)%nat with m by lia. apply B; lia.
    + replace (S m - 1)%nat with m by lia. apply (increasing_lt n); [exact Inc|lia].
  - intros i Hi. destruct (Nat.ltb_spec i q); [destruct (H i ltac:(lia)) as (j & Hj & E); exists j; split; [lia|exact E]|].
    destruct (Nat.eqb_spec i q); [exists n; split; [lia|reflexivity]|]. destruct (H (i - 1)%nat ltac:(lia)) as (j & Hj & E). exists j. split; [lia|exact E].
Qed.

(** n zeros in [a,b] leave n - k zeros of the k-th derivative *)
Lemma rolle_zeros a b k : forall n F Y, derivs_on a b k F -> (k <= n)%nat -> increasing n Y -> (forall i, (i < n)%nat -> a <= Y i <= b /\ F 0%nat (Y i) = 0) ->
  exists X, increasing (n - k) X /\ forall i, (i < n - k)%nat -> a <= X i <= b /\ F k (X i) = 0.
Proof.
  induction k as [|k IH]; intros n F Y D Hk Inc H.
  { exists Y. rewrite Nat.sub_0_r. split; assumption. }
  assert (St : exists y, forall i, (i < n - 1)%nat -> Y i < y i < Y (S i) /\ F 1%nat (y i) = 0).
  { apply (finite_choice (n - 1) (fun i y => Y i < y < Y (S i) /\ F 1%nat y = 0)). intros i Hi.
    destruct (H i ltac:(lia)) as (B1 & Z1). destruct (H (S i) ltac:(lia)) as (B2 & Z2). assert (L := Inc i ltac:(lia)).
    destruct (MVT_cor2 (F 0%nat) (F 1%nat) (Y i) (Y (S i)) L) as (c & E & Hc); [intros c Hc; apply D; [lia|lra]|].
    exists c. split; [exact Hc|]. rewrite Z1, Z2 in E. apply Rmult_eq_reg_r with (Y (S i) - Y i); lra. }
  destruct St as (y & Hy).
  destruct (IH (n - 1)%nat (fun j => F (S j)) y) as (X & HX & HX').
  - intros j t Hj Ht. apply D; [lia|exact Ht].
  - lia.
  - intros i Hi. destruct (Hy i ltac:(lia)) as (A & _). destruct (Hy (S i) ltac:(lia)) as (B & _). lra.
  - intros i Hi. destruct (Hy i Hi) as (A & E). destruct (H i ltac:(lia)) as (B1 & _). destruct (H (S i) ltac:(lia)) as (B2 & _). split; [lra|exact E].
  - exists X. replace (n - S k)%nat with (n - 1 - k)%nat by lia. split; assumption.
Qed.

Lemma dec_vertex n (Z : nat -> R) t : (exists i, (i < n)%nat /\ t = Z i) \/ (forall i, (i < n)%nat -> t <> Z i).
Proof.
  induction n as [|n [(i & Hi & E)|N]]; [right; intros; lia|left; exists i; split; [lia|exact E]|].
  destruct (Req_dec t (Z n)) as [E|E]; [left; exists n; split; [lia|exact E]|right]. intros i Hi. destruct (Nat.eq_dec i n) as [->|]; [exact E|apply N; lia].
Qed.

(** value: f(t) - p(t) = f^(n)(z) / n! * (t - Z_0) ... (t - Z_(n-1)) with z in [a,b] *)
Theorem value_error a b n Z F t : distinct n Z -> (forall i, (i < n)%nat -> a <= Z i <= b) -> a <= t <= b -> derivs_on a b n F ->
  exists z, a <= z <= b /\ F 0%nat t - interp n Z (fun m => F 0%nat (Z m)) t = F n z / INR (fact n) * npoly n Z t.
Proof.
  intros Dis HZ Ht D. assert (Ff : INR (fact n) <> 0) by (apply INR_fact_neq_0).
  destruct (dec_vertex n Z t) as [(i & Hi & ->)|N].
  - exists (Z i). split; [exact Ht|]. rewrite interp_node, npoly_vertex by assumption. ring.
  - assert (Hw : npoly n Z t <> 0) by (apply npoly_neq0; intros i Hi; specialize (N i Hi); lra).
    set (K := (F 0%nat t - interp n Z (fun m => F 0%nat (Z m)) t) / npoly n Z t).
    destruct (shifted n Z (fun m => F 0%nat (Z m)) K) as (c & Hc & Ec).
    set (G := fun k u => F k u - pval (S n - k) (dcoefs k c) u).
    assert (DG : derivs_on a b n G) by (intros k u Hk Hu; apply der_sub; [apply D; assumption|apply pval_derivs; exact Hk]).
    assert (Z0 : forall m, (m < n)%nat -> G 0%nat (Z m) = 0).
    { intros m Hm. unfold G. cbn [dcoefs]. rewrite Nat.sub_0_r, Ec, interp_node, npoly_vertex by assumption. ring. }
    assert (Zt : G 0%nat t = 0) by (unfold G; cbn [dcoefs]; rewrite Nat.sub_0_r, Ec; unfold K; field; exact Hw).
    set (W := fun i => if (i <? n)%nat then Z i else t).
    destruct (sort_points (S n) W) as (Y & Inc & HY).
    { intros i j Hi Hj Hij. unfold W. destruct (Nat.ltb_spec i n), (Nat.ltb_spec j n); [apply Dis; assumption|intros E; apply (N i); auto|apply N; assumption|lia]. }
    destruct (rolle_zeros a b n (S n) G Y DG) as (X & _ & HX); [lia|exact Inc| |].
    { intros i Hi. destruct (HY i Hi) as (j & Hj & ->). unfold W. destruct (Nat.ltb_spec j n); [split; [apply HZ; assumption|apply Z0; assumption]|split; assumption]. }
    destruct (HX 0%nat ltac:(lia)) as (Bz & Ez). exists (X 0%nat). split; [exact Bz|]. unfold G in Ez. rewrite pval_top, Hc in Ez.
    replace (F n (X 0%nat)) with (INR (fact n) * K) by lra. unfold K. field. split; assumption.
Qed.

Lemma npoly_bound a b n Z t : (forall i, (i < n)%nat -> a <= Z i <= b) -> a <= t <= b -> Rabs (npoly n Z t) <= (b - a) ^ n.
Proof.
  intros HZ Ht. induction n as [|n IH]; [unfold npoly; cbn; rewrite Rabs_R1; lra|]. unfold npoly in *. cbn [rprod]. rewrite Rabs_mult.
  cbn [pow]. rewrite (Rmult_comm (b - a)). apply Rmult_le_compat; [apply Rabs_pos|apply Rabs_pos|apply IH; intros; apply HZ; lia|].
  specialize (HZ n ltac:(lia)). apply Rabs_le. lra.
Qed.

(** k-th derivative of the interpolant: its error is that of interpolating f^(k) at n - k points of [a,b] *)
Theorem derivative_error a b p k Z F t : let n := S p in distinct n Z -> (forall i, (i < n)%nat -> a <= Z i <= b) -> a <= t <= b -> derivs_on a b n F -> (k <= p)%nat ->
  exists P, (forall x, P 0%nat x = interp n Z (fun m => F 0%nat (Z m)) x) /\ derivs p P /\
  exists X z, (forall i, (i < n - k)%nat -> a <= X i <= b) /\ a <= z <= b /\ F k t - P k t = F n z / INR (fact (n - k)) * npoly (n - k) X t.
Proof.
  intros n Dis HZ Ht D Hk. destruct (interp_poly n Z (fun m => F 0%nat (Z m))) as (c & Hc).
  set (P := fun j => pval (S p - j) (dcoefs j c)). exists P.
  assert (P0 : forall x, P 0%nat x = interp n Z (fun m => F 0%nat (Z m)) x).
  { intros x. unfold P. cbn [dcoefs]. rewrite Nat.sub_0_r. unfold pval. rewrite Hc. reflexivity. }
  split; [exact P0|]. split; [apply pval_derivs|].
  set (G := fun j u => F j u - P j u).
  assert (DG : derivs_on a b p G).
  { intros j u Hj Hu. apply der_sub; [apply D; [unfold n; lia|exact Hu]|apply pval_derivs; exact Hj]. }
  destruct (sort_points n Z Dis) as (Y & Inc & HY).
  destruct (rolle_zeros a b k n G Y) as (X & IncX & HX).
  - intros j u Hj Hu. apply DG; [lia|exact Hu].
  - unfold n. lia.
  - exact Inc.
  - intros i Hi. destruct (HY i Hi) as (j & Hj & ->). split; [apply HZ; exact Hj|]. unfold G. rewrite P0, interp_node by assumption. ring.
  - exists X. destruct (value_error a b (n - k) X (fun j => F (k + j)%nat) t) as (z & Hz & E).
    + apply increasing_distinct. exact IncX.
    + intros i Hi. apply HX. exact Hi.
    + exact Ht.
    + intros j u Hj Hu. rewrite Nat.add_succ_r. apply D; [lia|exact Hu].
    + exists z. split; [intros i Hi; apply HX; exact Hi|]. split; [exact Hz|]. rewrite Nat.add_0_r in E. replace (k + (n - k))%nat with n in E by (unfold n; lia).
      rewrite <- E. f_equal. transitivity (interp (n - k) X (fun m => P k (X m)) t).
      * rewrite interp_repro; [reflexivity|apply increasing_distinct; exact IncX|]. unfold P, n. exists (dcoefs k c). intros x. reflexivity.
      * apply interp_ext. intros i Hi. destruct (HX i Hi) as (_ & E2). unfold G in E2. lra.
Qed.

Lemma fact_pos_R n : 0 < INR (fact n).
Proof. apply INR_fact_lt_0. Qed.
Lemma scaled_bound y M c w W : Rabs y <= M -> 0 < c -> Rabs w <= W -> Rabs (y / c * w) <= M * W / c.
Proof.
  intros Hy Hc Hw. rewrite Rabs_mult. unfold Rdiv. rewrite Rabs_mult, (Rabs_pos_eq (/ c)) by (apply Rlt_le, Rinv_0_lt_compat, Hc).
  replace (M * W * / c) with (M * / c * W) by ring. apply Rmult_le_compat; [apply Rmult_le_pos; [apply Rabs_pos|apply Rlt_le, Rinv_0_lt_compat, Hc]|apply Rabs_pos| |exact Hw].
  apply Rmult_le_compat_r; [apply Rlt_le, Rinv_0_lt_compat, Hc|exact Hy].
Qed.
