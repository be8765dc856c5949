(** C42, C43, C49: the quadrature tables, the tensor rules and the partitioned weights.
    Arrays are lists of optional reals (None = never written); exact real arithmetic. *)
From Coq Require Import List Arith ZArith Reals Lia Lra Bool.
Import ListNotations.
Require Import Verif.Base Verif.RBase Verif.RSum Verif.Spec_Poly Verif.Spec_Quad Verif.Model_Quad.
Require Import Verif.Proof_Quad Verif.Proof_Quad2 Verif.Proof_Quad3 Verif.Proof_Quad4 Verif.Proof_Quad5 Verif.Proof_Quad6 Verif.Proof_Quad7.
Local Open Scope nat_scope.

(** * C43: the 1D tables *)
(** for 1..20 points the two Lobatto routines fill the first n entries with a quadrature rule exact for
    degree 2n-3 (1 for n = 1) to the accuracy lobatto_tol, with the end points of the interval *)
Theorem C43_lobatto : forall n nodes wts, 1 <= n <= 20 -> n <= length nodes -> n <= length wts ->
  exists x w nodes' wts',
    lobatto_nodes_1D nodes (Z.of_nat n) = Ok nodes' /\ lobatto_weights_1D wts (Z.of_nat n) = Ok wts' /\
    wrote n x nodes nodes' /\ wrote n w wts wts' /\ increasing n x /\ quad_rule n (lobatto_degree n) (lobatto_tol n) x w /\
    (2 <= n -> x 0 = (-1)%R /\ x (n - 1) = 1%R).
Proof.
  intros n nodes wts Hn Ln Lw. destruct (lobatto_rule n Hn) as (Lx & Lw' & Inc & Q).
  destruct (stores_wrote n wts _ Lw' Lw) as (wts' & Ew & Ww). destruct (stores_wrote n nodes _ Lx Ln) as (nodes' & Ex & Wx).
  eexists _, _, nodes', wts'. split; [exact Ex|]. split; [exact Ew|]. split; [exact Wx|]. split; [exact Ww|]. split; [exact Inc|]. split; [exact Q|].
  intros H2. assert (X0 : nth 0 (lobatto_nodes_tab (Z.of_nat n)) 0%R = (-1)%R).
  { destruct n as [|[|[|[|[|[|[|[|[|[|[|[|[|[|[|[|[|[|[|[|[|n]]]]]]]]]]]]]]]]]]]]]; try lia; cbn [Z.of_nat Pos.of_succ_nat Pos.succ lobatto_nodes_tab decs map nth fst snd]; rewrite ?d0; lra. }
  split; [exact X0|]. destruct (q_symmetric _ _ _ _ _ Q 0 ltac:(lia)) as [Y _]. rewrite Nat.sub_0_r in Y. cbv beta in Y. rewrite Y, X0. lra.
Qed.
Print Assumptions C43_lobatto.

(** for 1..19 points the two Legendre routines fill the first n entries with a rule exact for degree
    2n-1 to the accuracy legendre_tol, with points inside the interval *)
Theorem C43_legendre : forall n nodes wts, 1 <= n <= 19 -> n <= length nodes -> n <= length wts ->
  exists x w nodes' wts',
    legendre_nodes_1D nodes (Z.of_nat n) = Ok nodes' /\ legendre_weights_1D wts (Z.of_nat n) = Ok wts' /\
    wrote n x nodes nodes' /\ wrote n w wts wts' /\ increasing n x /\ quad_rule n (legendre_degree n) (legendre_tol n) x w.
Proof.
  intros n nodes wts Hn Ln Lw. destruct (legendre_rule n Hn) as (Lx & Lw' & Inc & Q).
  destruct (stores_wrote n wts _ Lw' Lw) as (wts' & Ew & Ww). destruct (stores_wrote n nodes _ Lx Ln) as (nodes' & Ex & Wx).
  eexists _, _, nodes', wts'. split; [exact Ex|]. split; [exact Ew|]. split; [exact Wx|]. split; [exact Ww|]. split; [exact Inc|]. exact Q.
Qed.
Print Assumptions C43_legendre.

(** every other size leaves the arrays unchanged, whatever they hold *)
Theorem C43_unsupported_sizes : forall num a,
  ((num < 1 \/ 20 < num)%Z -> lobatto_nodes_1D a num = Ok a /\ lobatto_weights_1D a num = Ok a) /\
  ((num < 1 \/ 19 < num)%Z -> legendre_nodes_1D a num = Ok a /\ legendre_weights_1D a num = Ok a).
Proof.
  intros num a. split; intros H.
  - unfold lobatto_nodes_1D, lobatto_weights_1D. rewrite lobatto_nodes_none, lobatto_weights_none by exact H. split; reflexivity.
  - unfold legendre_nodes_1D, legendre_weights_1D. rewrite legendre_nodes_none, legendre_weights_none by exact H. split; reflexivity.
Qed.
Print Assumptions C43_unsupported_sizes.

(** an array with fewer entries than points is overrun *)
Theorem C43_short_arrays : forall n a, length a < n ->
  (n <= 20 -> lobatto_nodes_1D a (Z.of_nat n) = Err OOB /\ lobatto_weights_1D a (Z.of_nat n) = Err OOB) /\
  (n <= 19 -> legendre_nodes_1D a (Z.of_nat n) = Err OOB /\ legendre_weights_1D a (Z.of_nat n) = Err OOB).
Proof.
  intros n a L. split; intros H.
  - destruct (lobatto_rule n) as (Lx & Lw & _); [lia|]. split; apply stores_short; lia.
  - destruct (legendre_rule n) as (Lx & Lw & _); [lia|]. split; apply stores_short; lia.
Qed.
Print Assumptions C43_short_arrays.

(** the copy of the Lobatto points in swage is the same function *)
Theorem C43_swage_copy : forall num a, lobatto_nodes_1D_tmp a num = lobatto_nodes_1D a num.
Proof. intros num a. unfold lobatto_nodes_1D_tmp, lobatto_nodes_1D. rewrite swage_same. reflexivity. Qed.
Print Assumptions C43_swage_copy.

Example C43_nonvacuous : forall f, f = lobatto_nodes_1D \/ f = legendre_nodes_1D -> exists a', f (repeat None 7) 7%Z = Ok a' /\ a' <> repeat None 7.
Proof. intros f [-> | ->]; eexists; (split; [reflexivity|discriminate]). Qed.

(** * C42: the tensor rules *)
Lemma sq_sum q deg tol x w (X W : nat -> nat -> R) : (0 <= tol)%R -> quad_rule q deg tol x w ->
  (forall m d, X m d = x (grid q m d)) -> (forall m d, W m d = w (grid q m d)) ->
  forall c v, integral2 (poly2 deg c) v ->
    (Rabs (rsum (q ^ 2) (fun m => W m 0%nat * W m 1%nat * poly2 deg c (X m 0%nat) (X m 1%nat)) - v) <= ((2 + tol) ^ 2 - 4) * norm2 deg c)%R.
Proof.
  intros Ht Q HX HW c v Hv. pose proof (tensor2 q deg tol x w c v Ht Q Hv) as T.
  rewrite <- (grid_sum2 q (fun i j => w i * w j * poly2 deg c (x i) (x j))%R) in T.
  rewrite (rsum_ext _ _ (fun m => w (grid q m 0) * w (grid q m 1) * poly2 deg c (x (grid q m 0)) (x (grid q m 1)))%R); [exact T|].
  intros m _. rewrite !HX, !HW. reflexivity.
Qed.
Lemma cu_sum q deg tol x w (X W : nat -> nat -> R) : (0 <= tol)%R -> quad_rule q deg tol x w ->
  (forall m d, X m d = x (grid q m d)) -> (forall m d, W m d = w (grid q m d)) ->
  forall c v, integral3 (poly3 deg c) v ->
    (Rabs (rsum (q ^ 3) (fun m => W m 0%nat * W m 1%nat * W m 2%nat * poly3 deg c (X m 0%nat) (X m 1%nat) (X m 2%nat)) - v) <= ((2 + tol) ^ 3 - 8) * norm3 deg c)%R.
Proof.
  intros Ht Q HX HW c v Hv. pose proof (tensor3 q deg tol x w c v Ht Q Hv) as T.
  rewrite <- (grid_sum3 q (fun i j k => w i * w j * w k * poly3 deg c (x i) (x j) (x k))%R) in T.
  rewrite (rsum_ext _ _ (fun m => w (grid q m 0) * w (grid q m 1) * w (grid q m 2) * poly3 deg c (x (grid q m 0)) (x (grid q m 1)) (x (grid q m 2)))%R); [exact T|].
  intros m _. rewrite !HX, !HW. reflexivity.
Qed.
Lemma gtol0 q : (0 <= line_gauss_tol q)%R.
Proof. unfold line_gauss_tol. destruct (q <=? 5); lra. Qed.
Lemma ltol0 q : (0 <= line_lobatto_tol q)%R.
Proof. unfold line_lobatto_tol. destruct (q <=? 3); lra. Qed.

(** gauss_2d with 1..8 points per direction: rows 0..q^2-1 of the points and of the directional weights
    hold the q x q grid of one 1D rule, first direction fastest; the third array holds the products;
    hence polynomials of degree 2q-1 in each variable are integrated over the square *)
Theorem C42_gauss_2d : forall q pts wts tot, 1 <= q <= 8 -> q ^ 2 * 2 <= length pts -> q ^ 2 * 2 <= length wts -> q ^ 2 <= length tot ->
  exists pts' wts' tot' (x w : nat -> R),
    gauss_2d pts wts tot (Z.of_nat q) = Ok (pts', wts', tot') /\
    quad_rule q (2 * q - 1) (line_gauss_tol q) x w /\
    wrote_rows 2 (q ^ 2) (fun m d => x (grid q m d)) pts pts' /\
    wrote_rows 2 (q ^ 2) (fun m d => w (grid q m d)) wts wts' /\
    wrote (q ^ 2) (fun m => w (grid q m 0) * w (grid q m 1))%R tot tot' /\
    forall c v, integral2 (poly2 (2 * q - 1) c) v ->
      (Rabs (rsum (q ^ 2) (fun m => w (grid q m 0) * w (grid q m 1) * poly2 (2 * q - 1) c (x (grid q m 0)) (x (grid q m 1))) - v)
       <= ((2 + line_gauss_tol q) ^ 2 - 4) * norm2 (2 * q - 1) c)%R.
Proof.
  intros q pts wts tot Hq Lp Lw Lt. destruct (gauss_2d_run q pts wts tot Hq Lp Lw Lt) as (p & w & t & E & Hp & Hw & Ht).
  exists p, w, t, (lx gauss_pts q), (lw gauss_wts q). split; [exact E|]. split; [exact (gauss_line_rule q Hq)|]. split; [exact Hp|]. split; [exact Hw|]. split; [exact Ht|].
  exact (sq_sum q _ _ _ _ (fun m d => lx gauss_pts q (grid q m d)) (fun m d => lw gauss_wts q (grid q m d)) (gtol0 q) (gauss_line_rule q Hq) (fun _ _ => eq_refl) (fun _ _ => eq_refl)).
Qed.
Print Assumptions C42_gauss_2d.

Theorem C42_gauss_3d : forall q pts wts tot, 1 <= q <= 8 -> q ^ 3 * 3 <= length pts -> q ^ 3 * 3 <= length wts -> q ^ 3 <= length tot ->
  exists pts' wts' tot' (x w : nat -> R),
    gauss_3d pts wts tot (Z.of_nat q) = Ok (pts', wts', tot') /\
    quad_rule q (2 * q - 1) (line_gauss_tol q) x w /\
    wrote_rows 3 (q ^ 3) (fun m d => x (grid q m d)) pts pts' /\
    wrote_rows 3 (q ^ 3) (fun m d => w (grid q m d)) wts wts' /\
    wrote (q ^ 3) (fun m => w (grid q m 0) * w (grid q m 1) * w (grid q m 2))%R tot tot' /\
    forall c v, integral3 (poly3 (2 * q - 1) c) v ->
      (Rabs (rsum (q ^ 3) (fun m => w (grid q m 0) * w (grid q m 1) * w (grid q m 2) *
                                    poly3 (2 * q - 1) c (x (grid q m 0)) (x (grid q m 1)) (x (grid q m 2))) - v)
       <= ((2 + line_gauss_tol q) ^ 3 - 8) * norm3 (2 * q - 1) c)%R.
Proof.
  intros q pts wts tot Hq Lp Lw Lt. destruct (gauss_3d_run q pts wts tot Hq Lp Lw Lt) as (p & w & t & E & Hp & Hw & Ht).
  exists p, w, t, (lx gauss_pts q), (lw gauss_wts q). split; [exact E|]. split; [exact (gauss_line_rule q Hq)|]. split; [exact Hp|]. split; [exact Hw|]. split; [exact Ht|].
  exact (cu_sum q _ _ _ _ (fun m d => lx gauss_pts q (grid q m d)) (fun m d => lw gauss_wts q (grid q m d)) (gtol0 q) (gauss_line_rule q Hq) (fun _ _ => eq_refl) (fun _ _ => eq_refl)).
Qed.
Print Assumptions C42_gauss_3d.

(** the Lobatto rules: the same, degree 2q-3 (1 for one point); they store no products *)
Theorem C42_lobatto_2d : forall q pts wts, 1 <= q <= 8 -> q ^ 2 * 2 <= length pts -> q ^ 2 * 2 <= length wts ->
  exists pts' wts' (x w : nat -> R),
    lobatto_2d pts wts (Z.of_nat q) = Ok (pts', wts') /\
    quad_rule q (lobatto_degree q) (line_lobatto_tol q) x w /\
    wrote_rows 2 (q ^ 2) (fun m d => x (grid q m d)) pts pts' /\
    wrote_rows 2 (q ^ 2) (fun m d => w (grid q m d)) wts wts' /\
    forall c v, integral2 (poly2 (lobatto_degree q) c) v ->
      (Rabs (rsum (q ^ 2) (fun m => w (grid q m 0) * w (grid q m 1) * poly2 (lobatto_degree q) c (x (grid q m 0)) (x (grid q m 1))) - v)
       <= ((2 + line_lobatto_tol q) ^ 2 - 4) * norm2 (lobatto_degree q) c)%R.
Proof.
  intros q pts wts Hq Lp Lw. destruct (lobatto_2d_run q pts wts Hq Lp Lw) as (p & w & E & Hp & Hw).
  exists p, w, (lx lobatto_pts q), (lw lobatto_wts q). split; [exact E|]. split; [exact (lobatto_line_rule q Hq)|]. split; [exact Hp|]. split; [exact Hw|].
  exact (sq_sum q _ _ _ _ (fun m d => lx lobatto_pts q (grid q m d)) (fun m d => lw lobatto_wts q (grid q m d)) (ltol0 q) (lobatto_line_rule q Hq) (fun _ _ => eq_refl) (fun _ _ => eq_refl)).
Qed.
Print Assumptions C42_lobatto_2d.

Theorem C42_lobatto_3d : forall q pts wts, 1 <= q <= 8 -> q ^ 3 * 3 <= length pts -> q ^ 3 * 3 <= length wts ->
  exists pts' wts' (x w : nat -> R),
    lobatto_3d pts wts (Z.of_nat q) = Ok (pts', wts') /\
    quad_rule q (lobatto_degree q) (line_lobatto_tol q) x w /\
    wrote_rows 3 (q ^ 3) (fun m d => x (grid q m d)) pts pts' /\
    wrote_rows 3 (q ^ 3) (fun m d => w (grid q m d)) wts wts' /\
    forall c v, integral3 (poly3 (lobatto_degree q) c) v ->
      (Rabs (rsum (q ^ 3) (fun m => w (grid q m 0) * w (grid q m 1) * w (grid q m 2) *
                                    poly3 (lobatto_degree q) c (x (grid q m 0)) (x (grid q m 1)) (x (grid q m 2))) - v)
       <= ((2 + line_lobatto_tol q) ^ 3 - 8) * norm3 (lobatto_degree q) c)%R.
Proof.
  intros q pts wts Hq Lp Lw. destruct (lobatto_3d_run q pts wts Hq Lp Lw) as (p & w & E & Hp & Hw).
  exists p, w, (lx lobatto_pts q), (lw lobatto_wts q). split; [exact E|]. split; [exact (lobatto_line_rule q Hq)|]. split; [exact Hp|]. split; [exact Hw|].
  exact (cu_sum q _ _ _ _ (fun m d => lx lobatto_pts q (grid q m d)) (fun m d => lw lobatto_wts q (grid q m d)) (ltol0 q) (lobatto_line_rule q Hq) (fun _ _ => eq_refl) (fun _ _ => eq_refl)).
Qed.
Print Assumptions C42_lobatto_3d.

Theorem C42_lobatto_4d : forall q pts wts, 1 <= q <= 8 -> q ^ 4 * 4 <= length pts -> q ^ 4 * 4 <= length wts ->
  exists pts' wts' (x w : nat -> R),
    lobatto_4d pts wts (Z.of_nat q) 4 = Ok (pts', wts') /\
    quad_rule q (lobatto_degree q) (line_lobatto_tol q) x w /\
    wrote_rows 4 (q ^ 4) (fun m d => x (grid q m d)) pts pts' /\
    wrote_rows 4 (q ^ 4) (fun m d => w (grid q m d)) wts wts'.
Proof.
  intros q pts wts Hq Lp Lw. destruct (lobatto_4d_run q pts wts Hq Lp Lw) as (p & w & E & Hp & Hw).
  exists p, w, (lx lobatto_pts q), (lw lobatto_wts q). split; [exact E|]. split; [exact (lobatto_line_rule q Hq)|]. split; [exact Hp|exact Hw].
Qed.
Print Assumptions C42_lobatto_4d.

(** the enumeration reaches every combination of 1D points exactly once *)
Theorem C42_every_combination_once : forall q nd (c : nat -> nat), 0 < q -> (forall d, d < nd -> c d < q) ->
  exists m, m < q ^ nd /\ (forall d, d < nd -> grid q m d = c d) /\
    forall m', m' < q ^ nd -> (forall d, d < nd -> grid q m' d = c d) -> m' = m.
Proof.
  intros q nd. induction nd as [|nd IH]; intros c Q Hc.
  - exists 0. cbn [Nat.pow]. split; [lia|]. split; [intros d Hd; lia|]. intros m' Hm _. lia.
  - destruct (IH c Q ltac:(intros d Hd; apply Hc; lia)) as (m & Hm & Dm & Um).
    assert (P : q ^ nd <> 0) by (apply Nat.pow_nonzero; lia). assert (Cn := Hc nd ltac:(lia)).
    assert (Low : forall m' d, d < nd -> grid q m' d = grid q (m' mod q ^ nd) d).
    { intros m' d Hd. unfold grid. rewrite (Nat.div_mod m' (q ^ nd) P) at 1.
      replace (q ^ nd) with (q ^ d * (q * q ^ (nd - S d))) at 1 by (rewrite <- Nat.pow_succ_r'; rewrite <- Nat.pow_add_r; f_equal; lia).
      replace (q ^ d * (q * q ^ (nd - S d)) * (m' / q ^ nd) + m' mod q ^ nd) with (q * q ^ (nd - S d) * (m' / q ^ nd) * q ^ d + m' mod q ^ nd) by ring.
      rewrite Nat.div_add_l by (apply Nat.pow_nonzero; lia). rewrite Nat.add_comm.
      replace (q * q ^ (nd - S d) * (m' / q ^ nd)) with (q ^ (nd - S d) * (m' / q ^ nd) * q) by ring. apply Nat.mod_add. lia. }
    assert (Top : forall m', m' < q ^ S nd -> grid q m' nd = m' / q ^ nd).
    { intros m' H. apply grid_top; assumption. }
    assert (Bd : c nd * q ^ nd + m < q ^ S nd) by (cbn [Nat.pow]; nia).
    exists (c nd * q ^ nd + m). split; [exact Bd|]. split.
    + intros d Hd. destruct (Nat.eq_dec d nd) as [->|N].
      * rewrite Top by exact Bd. rewrite Nat.div_add_l by exact P. rewrite Nat.div_small by exact Hm. lia.
      * rewrite Low by lia. rewrite Nat.add_comm, Nat.mod_add by exact P. rewrite Nat.mod_small by exact Hm. apply Dm. lia.
    + intros m' H' D'. assert (m' / q ^ nd = c nd) by (rewrite <- Top by exact H'; apply D'; lia).
      assert (m' mod q ^ nd = m).
      { apply Um; [apply Nat.mod_upper_bound; exact P|]. intros d Hd. rewrite <- Low by exact Hd. apply D'. lia. }
      rewrite (Nat.div_mod m' (q ^ nd) P). lia.
Qed.
Print Assumptions C42_every_combination_once.

(** gauss_4d resets the wrong weight: with arrays of exactly q^4 rows it always runs past the end *)
Theorem C42_gauss_4d_overrun : forall q dim pts wts r, 1 <= q -> length wts = q ^ 4 * 4 -> gauss_4d pts wts (Z.of_nat q) dim <> Ok r.
Proof. exact gauss_4d_exact_fails. Qed.
Print Assumptions C42_gauss_4d_overrun.

(** with one spare entry it returns, and multiplies the fourth weight into what the array held before *)
Theorem C42_gauss_4d_stale_weight : forall q old pts wts, 1 <= q <= 8 -> q ^ 4 * 4 <= length pts -> q ^ 4 * 4 + 1 <= length wts ->
  (forall m, m < q ^ 4 -> nth_error wts (m * 4 + 3) = Some (Some (old m))) ->
  exists pts' wts' (x w : nat -> R),
    gauss_4d pts wts (Z.of_nat q) 4 = Ok (pts', wts') /\ quad_rule q (2 * q - 1) (line_gauss_tol q) x w /\
    wrote_rows 4 (q ^ 4) (fun m d => x (grid q m d)) pts pts' /\
    (forall m d, m < q ^ 4 -> d < 3 -> entry 4 wts' m d (w (grid q m d))) /\
    (forall m, m < q ^ 4 -> entry 4 wts' m 3 (old m * w (grid q m 3))%R) /\
    nth_error wts' (q ^ 4 * 4) = Some (Some 1%R).
Proof.
  intros q old pts wts Hq Lp Lw Ho. destruct (gauss_4d_run q old pts wts Hq Lp Lw Ho) as (p & w & E & Hp & _ & Hw).
  exists p, w, (lx gauss_pts q), (lw gauss_wts q). split; [exact E|]. split; [exact (gauss_line_rule q Hq)|]. split; [exact Hp|].
  assert (I : forall m d, m < q ^ 4 -> d < 4 -> entry 4 w m d (rows4 q old (lw gauss_wts q) m d)).
  { intros m d Hm Hd. unfold entry. rewrite Hw. destruct (Nat.ltb_spec (m * 4 + d) (q ^ 4 * 4)); [|lia].
    replace ((m * 4 + d) / 4) with m by (apply Nat.div_unique with d; lia).
    replace ((m * 4 + d) mod 4) with d by (apply Nat.mod_unique with m; lia). reflexivity. }
  split; [|split].
  - intros m d Hm Hd. specialize (I m d Hm ltac:(lia)). unfold rows4 in I. destruct (Nat.eqb_spec d 3); [lia|exact I].
  - intros m Hm. exact (I m 3 Hm ltac:(lia)).
  - rewrite Hw. rewrite Nat.ltb_irrefl, Nat.eqb_refl. reflexivity.
Qed.
Print Assumptions C42_gauss_4d_stale_weight.

(** more than 8 points per direction: the rules use unset variables *)
Theorem C42_more_than_eight : forall q pts wts tot, (8 < q)%Z -> 4 < length wts -> 0 < length tot ->
  gauss_2d pts wts tot q = Err Uninit /\ gauss_3d pts wts tot q = Err Uninit /\ gauss_4d pts wts q 4 = Err Uninit /\
  lobatto_2d pts wts q = Err Uninit /\ lobatto_3d pts wts q = Err Uninit /\ lobatto_4d pts wts q 4 = Err Uninit.
Proof. intros q pts wts tot H Lw Lt. exact (big_uninit q pts wts tot H Lw Lt). Qed.
Print Assumptions C42_more_than_eight.

Example C42_nonvacuous : exists p w t v, gauss_3d (repeat None 24) (repeat None 24) (repeat None 8) 2 = Ok (p, w, t) /\ nth_error t 7 = Some (Some v) /\ v = 1%R.
Proof.
  destruct (gauss_3d_run 2 (repeat None 24) (repeat None 24) (repeat None 8)) as (p & w & t & E & _ & _ & T); [lia|cbn; lia|cbn; lia|cbn; lia|].
  exists p, w, t. eexists. split; [exact E|]. split; [rewrite (proj2 T); reflexivity|].
  unfold rows, lw, grid. cbn. unfold dec. cbn. field.
Qed.

(** * C49: partitioned weights *)
(** orders 1, 2, 3 with any symmetric rule of nonzero weights in the arrays: the corner weights split
    the weights, and the lengths of the edges are reproduced up to half of the amount by which the
    weights miss the length of the interval (exactly when they add up to it) *)
Theorem C49_sub_weights : forall p x w nodes wts sub, 1 <= p <= 3 -> holds_rule (2 * p + 1) x w nodes wts -> 4 * p <= length sub ->
  exists sub' s, sub_weights sub wts nodes (Z.of_nat p) = Ok sub' /\ wrote (4 * p) s sub sub' /\
    splits p (defect (2 * p + 1) x w / 2) x w s.
Proof.
  intros p x w nodes wts sub Hp H L. assert (P : p = 1 \/ p = 2 \/ p = 3) by lia.
  destruct (sub_weights_ok p x w nodes wts sub P H L) as (s' & E & W). exists s', (sub_vals p x w). split; [exact E|]. split; [exact W|].
  exact (sub_meaning p x w nodes wts P H).
Qed.
Print Assumptions C49_sub_weights.

Theorem C49_length_weights : forall p x w nodes wts len, 1 <= p <= 3 -> holds_rule (2 * p + 1) x w nodes wts -> 2 * p <= length len ->
  exists len' l, length_weights len wts nodes (Z.of_nat p) = Ok len' /\ wrote (2 * p) l len len' /\
    (2 <= p -> forall i, i < 2 * p -> (Rabs (l i - (x (S i) - x i)) <= defect (2 * p + 1) x w / 2)%R) /\
    (p = 1 -> l 0 = 1%R /\ l 1 = 1%R).
Proof.
  intros p x w nodes wts len Hp H L. assert (P : p = 1 \/ p = 2 \/ p = 3) by lia.
  destruct (length_weights_ok p x w nodes wts len P H L) as (l' & E & W). exists l', (len_vals p x w). split; [exact E|]. split; [exact W|]. split.
  - intros H2 i Hi. apply (len_meaning p x w nodes wts); [lia|exact H|exact Hi].
  - intros ->. split; reflexivity.
Qed.
Print Assumptions C49_length_weights.

(** the two set up from the Lobatto tables of the code, orders 1, 2, 3 *)
Theorem C49_setup : forall p nodes wts len sub, 1 <= p <= 3 ->
  2 * p + 1 <= length nodes -> 2 * p + 1 <= length wts -> 2 * p <= length len -> 4 * p <= length sub ->
  exists nodes' wts' len' sub' x w l s,
    set_nodes_wgts nodes wts len sub (Z.of_nat p) = Ok (nodes', wts', len', sub') /\
    wrote (2 * p + 1) x nodes nodes' /\ wrote (2 * p + 1) w wts wts' /\ wrote (2 * p) l len len' /\ wrote (4 * p) s sub sub' /\
    quad_rule (2 * p + 1) (4 * p - 1) (lobatto_tol (2 * p + 1)) x w /\ increasing (2 * p + 1) x /\
    (forall i, i < 2 * p -> (Rabs (l i - (x (S i) - x i)) <= lobatto_tol (2 * p + 1) / 2)%R) /\
    splits p (lobatto_tol (2 * p + 1) / 2) x w s /\ (forall i, i < 4 * p -> (0 < s i)%R).
Proof. exact set_nodes_wgts_ok. Qed.
Print Assumptions C49_setup.

(** orders 4..9: nodes and weights are set, the partition and the lengths silently are not *)
Theorem C49_orders_4_to_9 : forall p nodes wts len sub, 4 <= p <= 9 -> 2 * p + 1 <= length nodes -> 2 * p + 1 <= length wts ->
  exists nodes' wts' x w,
    set_nodes_wgts nodes wts len sub (Z.of_nat p) = Ok (nodes', wts', len, sub) /\
    wrote (2 * p + 1) x nodes nodes' /\ wrote (2 * p + 1) w wts wts' /\
    quad_rule (2 * p + 1) (4 * p - 1) (lobatto_tol (2 * p + 1)) x w /\ increasing (2 * p + 1) x.
Proof. exact set_nodes_wgts_high. Qed.
Print Assumptions C49_orders_4_to_9.

(** both read three points and weights whatever the order, so one- and two-point tables (order 0) fail *)
Theorem C49_short_tables : forall p nodes wts len sub, length nodes < 3 \/ length wts < 3 ->
  (forall r, length_weights len wts nodes p <> Ok r) /\ (forall r, sub_weights sub wts nodes p <> Ok r) /\
  (forall r, set_nodes_wgts nodes wts len sub p <> Ok r).
Proof.
  intros p nodes wts len sub H. split; [|split]; intros r.
  - exact (proj1 (short_fails p len sub nodes wts r H)).
  - exact (proj2 (short_fails p len sub nodes wts r H)).
  - exact (set_nodes_wgts_short p nodes wts len sub r H).
Qed.
Print Assumptions C49_short_tables.

(** a table of five equally spaced points with equal weights meets the hypothesis, with a defect of 1/2 *)
Example C49_nonvacuous :
  holds_rule 5 (fun i => INR i / 2 - 1)%R (fun _ => (1 / 2)%R) (map (fun i => Some (INR i / 2 - 1)%R) (seq 0 5)) (repeat (Some (1 / 2)%R) 5) /\
  defect 5 (fun i => INR i / 2 - 1)%R (fun _ => (1 / 2)%R) = (1 / 2)%R.
Proof.
  split.
  - split; [|split].
    + intros i Hi. do 5 (destruct i as [|i]; [split; reflexivity|]). lia.
    + intros i Hi. do 5 (destruct i as [|i]; [cbn; split; lra|]). lia.
    + intros i Hi. lra.
  - unfold defect, rsum. cbn. replace (0 + 1 / 2 + 1 / 2 + 1 / 2 + 1 / 2 + 1 / 2 - ((1 + 1 + 1 + 1) / 2 - 1 - (0 / 2 - 1)))%R with (1 / 2)%R by lra. rewrite Rabs_right; lra.
Qed.
