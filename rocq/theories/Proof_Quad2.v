(** The square-root tables are exact; all tables are rules. *)
From Coq Require Import List Arith ZArith Reals Lia Lra Bool.
Import ListNotations.
Require Import Verif.Base Verif.RBase Verif.RSum Verif.Spec_Poly Verif.Spec_Quad Verif.Model_Quad Verif.Proof_Quad.
Open Scope R_scope.

(** a table given by explicit lists is a rule when every entry-wise fact holds *)
Lemma list_rule n deg (xs ws : list R) : length xs = n -> length ws = n ->
  (forall i j, (i < n)%nat -> (j < n)%nat -> (i < j)%nat -> nth i xs 0 < nth j xs 0) ->
  (forall i, (i < n)%nat -> -1 <= nth i xs 0 <= 1) ->
  (forall i, (i < n)%nat -> nth (n - 1 - i) xs 0 = - nth i xs 0 /\ nth (n - 1 - i) ws 0 = nth i ws 0) ->
  (forall i, (i < n)%nat -> 0 < nth i ws 0) ->
  (forall k, (k <= deg)%nat -> rsum n (fun i => nth i ws 0 * nth i xs 0 ^ k) = mom k) ->
  length xs = n /\ length ws = n /\ increasing n (fun i => nth i xs 0) /\
  quad_rule n deg 0 (fun i => nth i xs 0) (fun i => nth i ws 0).
Proof.
  intros Lx Lw I B Sy P M. split; [exact Lx|]. split; [exact Lw|].
  assert (I' : increasing n (fun i => nth i xs 0)) by (intros i j H; apply I; lia).
  split; [exact I'|]. constructor.
  - intros i j Hi Hj D. destruct (Nat.lt_trichotomy i j) as [L|[E|L]]; [|contradiction|].
    + apply Rlt_not_eq. apply I; lia.
    + apply not_eq_sym. apply Rlt_not_eq. apply I; lia.
  - exact B.
  - exact Sy.
  - exact P.
  - apply moments_exact. intros k Hk. rewrite M by exact Hk. unfold Rminus. rewrite Rplus_opp_r, Rabs_R0. lra.
Qed.

Lemma sqrt_bd a l h : 0 <= l -> 0 <= h -> l * l < a < h * h -> l < sqrt a < h.
Proof.
  intros L H B. split; [rewrite <- (sqrt_square l) by lra|rewrite <- (sqrt_square h) by lra]; apply sqrt_lt_1_alt; nra.
Qed.


Definition is_rule (n deg : nat) (tol : R) (xs ws : list R) : Prop :=
  length xs = n /\ length ws = n /\ increasing n (fun i => nth i xs 0) /\ quad_rule n deg tol (fun i => nth i xs 0) (fun i => nth i ws 0).

Tactic Notation "small_rule" integer(n) integer(d) "with" tactic(t) :=
  apply list_rule; [reflexivity|reflexivity
   |intros i j Hi Hj Hij; do n (destruct i as [|i]; [do n (destruct j as [|j]; [try lia; cbn [nth]; lra|]); lia|]); lia
   |intros i Hi; do n (destruct i as [|i]; [cbn [nth]; lra|]); lia
   |intros i Hi; do n (destruct i as [|i]; [cbn [nth Nat.sub]; lra|]); lia
   |intros i Hi; do n (destruct i as [|i]; [cbn [nth Nat.sub]; lra|]); lia
   |intros k Hk; do d (destruct k as [|k]; [unfold mom; cbn [rsum nth INR]; t|]); lia].

Lemma lob1 : is_rule 1 1 0 (lobatto_nodes_tab 1) (lobatto_weights_tab 1).
Proof. cbn [lobatto_nodes_tab lobatto_weights_tab decs map fst snd]. unfold dec. cbn [Z.of_nat Z.pow]. small_rule 1 2 with (field). Qed.
Lemma lob2 : is_rule 2 1 0 (lobatto_nodes_tab 2) (lobatto_weights_tab 2).
Proof. cbn [lobatto_nodes_tab lobatto_weights_tab decs map fst snd]. unfold dec. cbn [Z.of_nat Z.pow]. small_rule 2 2 with (field). Qed.
Lemma lob3 : is_rule 3 3 0 (lobatto_nodes_tab 3) (lobatto_weights_tab 3).
Proof. cbn [lobatto_nodes_tab lobatto_weights_tab decs map fst snd]. unfold dec. cbn [Z.of_nat Z.pow]. small_rule 3 4 with (field). Qed.

Lemma lob4 : is_rule 4 5 0 (lobatto_nodes_tab 4) (lobatto_weights_tab 4).
Proof.
  cbn [lobatto_nodes_tab lobatto_weights_tab]. set (s := sqrt 5).
  assert (Q : s * s = 5) by (apply sqrt_sqrt; lra).
  assert (B : 2 < s < 3) by (apply sqrt_bd; lra).
  assert (Q2 : s ^ 2 = 5) by (cbn [pow]; lra). assert (Q4 : s ^ 4 = 25) by (replace (s ^ 4) with (s * s * (s * s)) by ring; rewrite Q; lra).
  small_rule 4 6 with (ring_simplify; rewrite ?Q4, ?Q2; try field; try lra).
Qed.
Lemma lob5 : is_rule 5 7 0 (lobatto_nodes_tab 5) (lobatto_weights_tab 5).
Proof.
  cbn [lobatto_nodes_tab lobatto_weights_tab]. set (s := sqrt 21).
  assert (Q : s * s = 21) by (apply sqrt_sqrt; lra).
  assert (B : 4 < s < 5) by (apply sqrt_bd; lra).
  assert (Q2 : s ^ 2 = 21) by (cbn [pow]; lra). assert (Q4 : s ^ 4 = 441) by (replace (s ^ 4) with (s * s * (s * s)) by ring; rewrite Q; lra).
  assert (Q6 : s ^ 6 = 9261) by (replace (s ^ 6) with (s * s * (s * s) * (s * s)) by ring; rewrite Q; lra).
  small_rule 5 8 with (ring_simplify; rewrite ?Q6, ?Q4, ?Q2; try field; try lra).
Qed.

Lemma gau2 : is_rule 2 3 0 (gauss_pts 2) (gauss_wts 2).
Proof.
  cbn [gauss_pts gauss_wts decs map fst snd]. unfold dec. cbn [Z.of_nat Z.pow]. set (s := sqrt 3).
  assert (Q : s * s = 3) by (apply sqrt_sqrt; lra).
  assert (B : 1.7 < s < 1.8) by (apply sqrt_bd; lra).
  replace (-1 / s) with (- s / 3) by (field_simplify_eq; [cbn [pow]; lra|lra]).
  assert (Q2 : s ^ 2 = 3) by (cbn [pow]; lra).
  small_rule 2 4 with (ring_simplify; rewrite ?Q2; try field; try lra).
Qed.
Lemma gau3 : is_rule 3 5 0 (gauss_pts 3) (gauss_wts 3).
Proof.
  cbn [gauss_pts gauss_wts]. set (s := sqrt (3/5)).
  assert (Q : s * s = 3/5) by (apply sqrt_sqrt; lra).
  assert (B : 0.7 < s < 0.8) by (apply sqrt_bd; lra).
  assert (Q2 : s ^ 2 = 3/5) by (cbn [pow]; lra). assert (Q4 : s ^ 4 = 9/25) by (replace (s ^ 4) with (s * s * (s * s)) by ring; rewrite Q; lra).
  small_rule 3 6 with (ring_simplify; rewrite ?Q4, ?Q2; try field; try lra).
Qed.

Lemma lob6 : is_rule 6 9 0 (lobatto_nodes_tab 6) (lobatto_weights_tab 6).
Proof.
  cbn [lobatto_nodes_tab lobatto_weights_tab]. set (s := sqrt 7).
  assert (Q : s * s = 7) by (apply sqrt_sqrt; lra). assert (Q2 : s ^ 2 = 7) by (cbn [pow]; lra).
  assert (Bs : 2.6 < s < 2.7) by (apply sqrt_bd; lra).
  set (a := sqrt (1/21*(7 + 2*s))). set (b := sqrt (1/21*(7 - 2*s))).
  assert (Qa : a * a = 1/21*(7 + 2*s)) by (apply sqrt_sqrt; lra).
  assert (Qb : b * b = 1/21*(7 - 2*s)) by (apply sqrt_sqrt; lra).
  assert (Ba : 0.7 < a < 0.8) by (apply sqrt_bd; lra). assert (Bb : 0.2 < b < 0.3) by (apply sqrt_bd; lra).
  assert (A2 : a ^ 2 = (1/3) + (2/21) * s) by (cbn [pow]; lra).
  assert (A4 : a ^ 4 = (11/63) + (4/63) * s) by (replace (a ^ 4) with (a ^ 2 * a ^ 2) by ring; rewrite ?A2, ?A2; ring_simplify; rewrite Q2; field).
  assert (A6 : a ^ 6 = (19/189) + (50/1323) * s) by (replace (a ^ 6) with (a ^ 4 * a ^ 2) by ring; rewrite ?A4, ?A2; ring_simplify; rewrite Q2; field).
  assert (A8 : a ^ 8 = (233/3969) + (88/3969) * s) by (replace (a ^ 8) with (a ^ 6 * a ^ 2) by ring; rewrite ?A6, ?A2; ring_simplify; rewrite Q2; field).
  assert (B2 : b ^ 2 = (1/3) + (-2/21) * s) by (cbn [pow]; lra).
  assert (B4 : b ^ 4 = (11/63) + (-4/63) * s) by (replace (b ^ 4) with (b ^ 2 * b ^ 2) by ring; rewrite ?B2, ?B2; ring_simplify; rewrite Q2; field).
  assert (B6 : b ^ 6 = (19/189) + (-50/1323) * s) by (replace (b ^ 6) with (b ^ 4 * b ^ 2) by ring; rewrite ?B4, ?B2; ring_simplify; rewrite Q2; field).
  assert (B8 : b ^ 8 = (233/3969) + (-88/3969) * s) by (replace (b ^ 8) with (b ^ 6 * b ^ 2) by ring; rewrite ?B6, ?B2; ring_simplify; rewrite Q2; field).
  small_rule 6 10 with (try ring_simplify; rewrite ?A8, ?B8, ?A6, ?B6, ?A4, ?B4, ?A2, ?B2; try ring_simplify; rewrite ?Q2; try field; try lra).
Qed.

Lemma gau4 : is_rule 4 7 0 (gauss_pts 4) (gauss_wts 4).
Proof.
  cbn [gauss_pts gauss_wts]. set (s := sqrt (6/5)).
  assert (Q : s * s = 6/5) by (apply sqrt_sqrt; lra). assert (Q2 : s ^ 2 = 6/5) by (cbn [pow]; lra).
  assert (Bs : 1 < s < 1.1) by (apply sqrt_bd; lra).
  replace (sqrt (5/6)) with (5/6 * s) by (symmetry; apply sqrt_lem_1; [lra|lra|]; replace (5/6*s*(5/6*s)) with (25/36*(s*s)) by field; rewrite Q; lra).
  set (a := sqrt ((3 + 2*s) / 7)). set (b := sqrt ((3 - 2*s) / 7)).
  assert (Qa : a * a = (3 + 2*s)/7) by (apply sqrt_sqrt; lra).
  assert (Qb : b * b = (3 - 2*s)/7) by (apply sqrt_sqrt; lra).
  assert (Ba : 0.8 < a < 0.9) by (apply sqrt_bd; lra). assert (Bb : 0.3 < b < 0.4) by (apply sqrt_bd; lra).
  assert (A2 : a ^ 2 = (3/7) + (2/7) * s) by (cbn [pow]; lra).
  assert (A4 : a ^ 4 = (69/245) + (12/49) * s) by (replace (a ^ 4) with (a ^ 2 * a ^ 2) by ring; rewrite ?A2, ?A2; ring_simplify; rewrite Q2; field).
  assert (A6 : a ^ 6 = (351/1715) + (318/1715) * s) by (replace (a ^ 6) with (a ^ 4 * a ^ 2) by ring; rewrite ?A4, ?A2; ring_simplify; rewrite Q2; field).
  assert (A8 : a ^ 8 = (9081/60025) + (1656/12005) * s) by (replace (a ^ 8) with (a ^ 6 * a ^ 2) by ring; rewrite ?A6, ?A2; ring_simplify; rewrite Q2; field).
  assert (B2 : b ^ 2 = (3/7) + (-2/7) * s) by (cbn [pow]; lra).
  assert (B4 : b ^ 4 = (69/245) + (-12/49) * s) by (replace (b ^ 4) with (b ^ 2 * b ^ 2) by ring; rewrite ?B2, ?B2; ring_simplify; rewrite Q2; field).
  assert (B6 : b ^ 6 = (351/1715) + (-318/1715) * s) by (replace (b ^ 6) with (b ^ 4 * b ^ 2) by ring; rewrite ?B4, ?B2; ring_simplify; rewrite Q2; field).
  assert (B8 : b ^ 8 = (9081/60025) + (-1656/12005) * s) by (replace (b ^ 8) with (b ^ 6 * b ^ 2) by ring; rewrite ?B6, ?B2; ring_simplify; rewrite Q2; field).
  small_rule 4 8 with (try ring_simplify; rewrite ?A8, ?B8, ?A6, ?B6, ?A4, ?B4, ?A2, ?B2; try ring_simplify; rewrite ?Q2; try field; try lra).
Qed.

Lemma gau5 : is_rule 5 9 0 (gauss_pts 5) (gauss_wts 5).
Proof.
  cbn [gauss_pts gauss_wts]. set (s := sqrt (10/7)).
  assert (Q : s * s = 10/7) by (apply sqrt_sqrt; lra). assert (Q2 : s ^ 2 = 10/7) by (cbn [pow]; lra).
  assert (Bs : 1.1 < s < 1.2) by (apply sqrt_bd; lra).
  replace (sqrt 70) with (7 * s) by (symmetry; apply sqrt_lem_1; [lra|lra|]; replace (7*s*(7*s)) with (49*(s*s)) by ring; rewrite Q; lra).
  set (a1 := sqrt (5 + 2*s)). set (b1 := sqrt (5 - 2*s)).
  assert (Qa1 : a1 * a1 = 5 + 2*s) by (apply sqrt_sqrt; lra).
  assert (Qb1 : b1 * b1 = 5 - 2*s) by (apply sqrt_sqrt; lra).
  assert (Ba1 : 2.6 < a1 < 2.9) by (apply sqrt_bd; lra). assert (Bb1 : 1.5 < b1 < 1.7) by (apply sqrt_bd; lra).
  replace (- a1 / 3) with (- (a1 / 3)) by field. replace (- b1 / 3) with (- (b1 / 3)) by field.
  assert (Qa : (a1 / 3) * (a1 / 3) = (5 + 2*s) / 9) by (rewrite <- Qa1; field).
  assert (Qb : (b1 / 3) * (b1 / 3) = (5 - 2*s) / 9) by (rewrite <- Qb1; field).
  assert (Ba : 0.8 < a1 / 3 < 0.97) by lra. assert (Bb : 0.5 < b1 / 3 < 0.6) by lra.
  generalize dependent (a1 / 3). intros a Qa Ba. generalize dependent (b1 / 3). intros b Qb Bb.
  assert (A2 : a ^ 2 = (5/9) + (2/9) * s) by (cbn [pow]; lra).
  assert (A4 : a ^ 4 = (215/567) + (20/81) * s) by (replace (a ^ 4) with (a ^ 2 * a ^ 2) by ring; rewrite ?A2, ?A2; ring_simplify; rewrite Q2; field).
  assert (A6 : a ^ 6 = (1475/5103) + (1130/5103) * s) by (replace (a ^ 6) with (a ^ 4 * a ^ 2) by ring; rewrite ?A4, ?A2; ring_simplify; rewrite Q2; field).
  assert (A8 : a ^ 8 = (74225/321489) + (8600/45927) * s) by (replace (a ^ 8) with (a ^ 6 * a ^ 2) by ring; rewrite ?A6, ?A2; ring_simplify; rewrite Q2; field).
  assert (B2 : b ^ 2 = (5/9) + (-2/9) * s) by (cbn [pow]; lra).
  assert (B4 : b ^ 4 = (215/567) + (-20/81) * s) by (replace (b ^ 4) with (b ^ 2 * b ^ 2) by ring; rewrite ?B2, ?B2; ring_simplify; rewrite Q2; field).
  assert (B6 : b ^ 6 = (1475/5103) + (-1130/5103) * s) by (replace (b ^ 6) with (b ^ 4 * b ^ 2) by ring; rewrite ?B4, ?B2; ring_simplify; rewrite Q2; field).
  assert (B8 : b ^ 8 = (74225/321489) + (-8600/45927) * s) by (replace (b ^ 8) with (b ^ 6 * b ^ 2) by ring; rewrite ?B6, ?B2; ring_simplify; rewrite Q2; field).
  small_rule 5 10 with (try ring_simplify; rewrite ?A8, ?B8, ?A6, ?B6, ?A4, ?B4, ?A2, ?B2; try ring_simplify; rewrite ?Q2; try field; try lra).
Qed.
