(** Property C71: accuracy of the quadrature rules for smooth functions. *)
From Coq Require Import List Reals Arith ZArith Lia Lra.
From Coquelicot Require Import Coquelicot.
Require Import Verif.Base Verif.RSum Verif.RDer Verif.Poly Verif.Spec_Poly Verif.Spec_Quad Verif.Spec_Gauss Verif.Spec_Accuracy Verif.Model_Quad Verif.Model_Poly Verif.Model_Gauss Verif.Rolle
  Verif.Proof_Quad6 Verif.Quad_Err Verif.Prop_Quad Verif.Prop_Poly.
Open Scope R_scope.

Lemma tolerances n : 0 <= lobatto_tol n /\ 0 <= legendre_tol n.
Proof.
  assert (P : forall k, 0 < 10 ^ k) by (intros; apply pow_lt; lra). assert (Dv : forall u k, 0 <= u -> 0 <= u / 10 ^ k) by (intros; apply Rmult_le_pos; [assumption|apply Rlt_le, Rinv_0_lt_compat, P]).
  unfold lobatto_tol, legendre_tol. split; repeat match goal with |- context [if ?c then _ else _] => destruct c end; try lra; apply Dv; lra.
Qed.

(** 1D tables: the sum over the table entries is within the bound of the integral *)
Theorem C71_legendre : forall n nodes wts, (1 <= n <= 19)%nat -> (n <= length nodes)%nat -> (n <= length wts)%nat ->
  exists x w nodes' wts',
    legendre_nodes_1D nodes (Z.of_nat n) = Ok nodes' /\ legendre_weights_1D wts (Z.of_nat n) = Ok wts' /\
    wrote n x nodes nodes' /\ wrote n w wts wts' /\
    forall M A f, smooth_line (2 * n) M A f -> exists I, integral f I /\
      Rabs (rsum n (fun i => w i * f (x i)) - I) <= rule_error_bound (2 * n - 1) (legendre_tol n) M A.
Proof.
  intros n nodes wts Hn L1 L2. destruct (C43_legendre n nodes wts Hn L1 L2) as (x & w & nodes' & wts' & E1 & E2 & W1 & W2 & _ & Q).
  exists x, w, nodes', wts'. split; [exact E1|]. split; [exact E2|]. split; [exact W1|]. split; [exact W2|]. intros M A f Hf.
  replace (2 * n)%nat with (S (2 * n - 1)) in Hf by lia. destruct (line_int (2 * n - 1) M A f Hf) as (I & HI). exists I. split; [exact HI|].
  apply (line_error n (2 * n - 1) (legendre_tol n) x w Q (proj2 (tolerances n)) M A f I Hf HI).
Qed.
Print Assumptions C71_legendre.
Theorem C71_lobatto : forall n nodes wts, (1 <= n <= 20)%nat -> (n <= length nodes)%nat -> (n <= length wts)%nat ->
  exists x w nodes' wts',
    lobatto_nodes_1D nodes (Z.of_nat n) = Ok nodes' /\ lobatto_weights_1D wts (Z.of_nat n) = Ok wts' /\
    wrote n x nodes nodes' /\ wrote n w wts wts' /\
    forall M A f, smooth_line (S (lobatto_degree n)) M A f -> exists I, integral f I /\
      Rabs (rsum n (fun i => w i * f (x i)) - I) <= rule_error_bound (lobatto_degree n) (lobatto_tol n) M A.
Proof.
  intros n nodes wts Hn L1 L2. destruct (C43_lobatto n nodes wts Hn L1 L2) as (x & w & nodes' & wts' & E1 & E2 & W1 & W2 & _ & Q & _).
  exists x, w, nodes', wts'. split; [exact E1|]. split; [exact E2|]. split; [exact W1|]. split; [exact W2|]. intros M A f Hf.
  destruct (line_int (lobatto_degree n) M A f Hf) as (I & HI). exists I. split; [exact HI|].
  apply (line_error n (lobatto_degree n) (lobatto_tol n) x w Q (proj1 (tolerances n)) M A f I Hf HI).
Qed.
Print Assumptions C71_lobatto.

(** tensor rules: the sum over all points of the filled arrays *)
Lemma square_sum q (x w : nat -> R) f : rsum (q ^ 2) (fun m => w (grid q m 0) * w (grid q m 1) * f (x (grid q m 0)) (x (grid q m 1))) = rsum q (fun i => w i * rsum q (fun j => w j * f (x i) (x j))).
Proof.
  rewrite (grid_sum2 q (fun i j => w i * w j * f (x i) (x j))). rewrite rsum_swap.
  apply rsum_ext. intros i Hi. rewrite <- rsum_scal_l. apply rsum_ext. intros j Hj. ring.
Qed.
Lemma cube_sum q (x w : nat -> R) f : rsum (q ^ 3) (fun m => w (grid q m 0) * w (grid q m 1) * w (grid q m 2) * f (x (grid q m 0)) (x (grid q m 1)) (x (grid q m 2))) =
  rsum q (fun i => w i * rsum q (fun j => w j * rsum q (fun k => w k * f (x i) (x j) (x k)))).
Proof.
  rewrite (grid_sum3 q (fun i j k => w i * w j * w k * f (x i) (x j) (x k))).
  rewrite (rsum_ext q _ (fun k => rsum q (fun i => rsum q (fun j => w i * w j * w k * f (x i) (x j) (x k))))) by (intros; apply rsum_swap).
  rewrite rsum_swap. apply rsum_ext. intros i Hi. rewrite rsum_swap. rewrite <- rsum_scal_l. apply rsum_ext. intros j Hj. rewrite <- !rsum_scal_l. apply rsum_ext. intros k Hk. ring.
Qed.
Lemma coordinate_rows nd n v a a' m d : wrote_rows nd n v a a' -> (m < n)%nat -> (d < nd)%nat -> coordinate nd a' m d = v m d.
Proof.
  intros (_ & H) Hm Hd. unfold coordinate. rewrite H. destruct (Nat.ltb_spec (m * nd + d) (n * nd)); [|nia].
  replace ((m * nd + d) / nd)%nat with m by (apply Nat.div_unique with d; lia). replace ((m * nd + d) mod nd)%nat with d by (apply Nat.mod_unique with m; lia). reflexivity.
Qed.
Lemma coordinate_wrote n v a a' m : wrote n v a a' -> (m < n)%nat -> coordinate 1 a' m 0 = v m.
Proof. intros (_ & H) Hm. unfold coordinate. replace (m * 1 + 0)%nat with m by lia. rewrite H. destruct (Nat.ltb_spec m n); [reflexivity|lia]. Qed.

Theorem C71_gauss_2d : forall q pts wts tot, (1 <= q <= 8)%nat -> (q ^ 2 * 2 <= length pts)%nat -> (q ^ 2 * 2 <= length wts)%nat -> (q ^ 2 <= length tot)%nat ->
  exists pts' wts' tot', gauss_2d pts wts tot (Z.of_nat q) = Ok (pts', wts', tot') /\
    forall M A f v, (forall y, -1 <= y <= 1 -> smooth_line (2 * q) M A (fun t => f t y)) -> (forall u, -1 <= u <= 1 -> smooth_line (2 * q) M A (fun t => f u t)) -> integral2 f v ->
      Rabs (rsum (q ^ 2) (fun m => coordinate 1 tot' m 0 * f (coordinate 2 pts' m 0) (coordinate 2 pts' m 1)) - v) <=
      (4 + line_gauss_tol q) * rule_error_bound (2 * q - 1) (line_gauss_tol q) M A.
Proof.
  intros q pts wts tot Hq L1 L2 L3. destruct (C42_gauss_2d q pts wts tot Hq L1 L2 L3) as (pts' & wts' & tot' & x & w & E & Q & W1 & W2 & W3 & _).
  exists pts', wts', tot'. split; [exact E|]. intros M A f v Sx Sy Hv.
  rewrite (rsum_ext _ _ (fun m => w (grid q m 0) * w (grid q m 1) * f (x (grid q m 0)) (x (grid q m 1)))).
  - rewrite square_sum. replace (2 * q)%nat with (S (2 * q - 1)) in Sx, Sy by lia. apply (square_error q (2 * q - 1) (line_gauss_tol q) x w Q (gtol0 q) M A f v Sx Sy Hv).
  - intros m Hm. rewrite (coordinate_wrote _ _ _ _ m W3 Hm), !(coordinate_rows _ _ _ _ _ m _ W1 Hm) by lia. reflexivity.
Qed.
Print Assumptions C71_gauss_2d.
Theorem C71_gauss_3d : forall q pts wts tot, (1 <= q <= 8)%nat -> (q ^ 3 * 3 <= length pts)%nat -> (q ^ 3 * 3 <= length wts)%nat -> (q ^ 3 <= length tot)%nat ->
  exists pts' wts' tot', gauss_3d pts wts tot (Z.of_nat q) = Ok (pts', wts', tot') /\
    forall M A f v, smooth_cube (2 * q) M A f -> integral3 f v ->
      Rabs (rsum (q ^ 3) (fun m => coordinate 1 tot' m 0 * f (coordinate 3 pts' m 0) (coordinate 3 pts' m 1) (coordinate 3 pts' m 2)) - v) <=
      (12 + 6 * line_gauss_tol q + line_gauss_tol q * line_gauss_tol q) * rule_error_bound (2 * q - 1) (line_gauss_tol q) M A.
Proof.
  intros q pts wts tot Hq L1 L2 L3. destruct (C42_gauss_3d q pts wts tot Hq L1 L2 L3) as (pts' & wts' & tot' & x & w & E & Q & W1 & W2 & W3 & _).
  exists pts', wts', tot'. split; [exact E|]. intros M A f v Sf Hv.
  rewrite (rsum_ext _ _ (fun m => w (grid q m 0) * w (grid q m 1) * w (grid q m 2) * f (x (grid q m 0)) (x (grid q m 1)) (x (grid q m 2)))).
  - rewrite cube_sum. replace (2 * q)%nat with (S (2 * q - 1)) in Sf by lia. apply (cube_error q (2 * q - 1) (line_gauss_tol q) x w Q (gtol0 q) M A f v Sf Hv).
  - intros m Hm. rewrite (coordinate_wrote _ _ _ _ m W3 Hm), !(coordinate_rows _ _ _ _ _ m _ W1 Hm) by lia. reflexivity.
Qed.
Print Assumptions C71_gauss_3d.
Theorem C71_lobatto_2d : forall q pts wts, (1 <= q <= 8)%nat -> (q ^ 2 * 2 <= length pts)%nat -> (q ^ 2 * 2 <= length wts)%nat ->
  exists pts' wts', lobatto_2d pts wts (Z.of_nat q) = Ok (pts', wts') /\
    forall M A f v, let deg := lobatto_degree q in
      (forall y, -1 <= y <= 1 -> smooth_line (S deg) M A (fun t => f t y)) -> (forall u, -1 <= u <= 1 -> smooth_line (S deg) M A (fun t => f u t)) -> integral2 f v ->
      Rabs (rsum (q ^ 2) (fun m => coordinate 2 wts' m 0 * coordinate 2 wts' m 1 * f (coordinate 2 pts' m 0) (coordinate 2 pts' m 1)) - v) <=
      (4 + line_lobatto_tol q) * rule_error_bound deg (line_lobatto_tol q) M A.
Proof.
  intros q pts wts Hq L1 L2. destruct (C42_lobatto_2d q pts wts Hq L1 L2) as (pts' & wts' & x & w & E & Q & W1 & W2 & _).
  exists pts', wts'. split; [exact E|]. intros M A f v deg Sx Sy Hv.
  rewrite (rsum_ext _ _ (fun m => w (grid q m 0) * w (grid q m 1) * f (x (grid q m 0)) (x (grid q m 1)))).
  - rewrite square_sum. apply (square_error q deg (line_lobatto_tol q) x w Q (ltol0 q) M A f v Sx Sy Hv).
  - intros m Hm. rewrite !(coordinate_rows _ _ _ _ _ m _ W1 Hm), !(coordinate_rows _ _ _ _ _ m _ W2 Hm) by lia. reflexivity.
Qed.
Print Assumptions C71_lobatto_2d.
Theorem C71_lobatto_3d : forall q pts wts, (1 <= q <= 8)%nat -> (q ^ 3 * 3 <= length pts)%nat -> (q ^ 3 * 3 <= length wts)%nat ->
  exists pts' wts', lobatto_3d pts wts (Z.of_nat q) = Ok (pts', wts') /\
    forall M A f v, let deg := lobatto_degree q in smooth_cube (S deg) M A f -> integral3 f v ->
      Rabs (rsum (q ^ 3) (fun m => coordinate 3 wts' m 0 * coordinate 3 wts' m 1 * coordinate 3 wts' m 2 * f (coordinate 3 pts' m 0) (coordinate 3 pts' m 1) (coordinate 3 pts' m 2)) - v) <=
      (12 + 6 * line_lobatto_tol q + line_lobatto_tol q * line_lobatto_tol q) * rule_error_bound deg (line_lobatto_tol q) M A.
Proof.
  intros q pts wts Hq L1 L2. destruct (C42_lobatto_3d q pts wts Hq L1 L2) as (pts' & wts' & x & w & E & Q & W1 & W2 & _).
  exists pts', wts'. split; [exact E|]. intros M A f v deg Sf Hv.
  rewrite (rsum_ext _ _ (fun m => w (grid q m 0) * w (grid q m 1) * w (grid q m 2) * f (x (grid q m 0)) (x (grid q m 1)) (x (grid q m 2)))).
  - rewrite cube_sum. apply (cube_error q deg (line_lobatto_tol q) x w Q (ltol0 q) M A f v Sf Hv).
  - intros m Hm. rewrite !(coordinate_rows _ _ _ _ _ m _ W1 Hm), !(coordinate_rows _ _ _ _ _ m _ W2 Hm) by lia. reflexivity.
Qed.
Print Assumptions C71_lobatto_3d.

Lemma positive_close n (w f g : nat -> R) e : (forall i, (i < n)%nat -> 0 < w i) -> (forall i, (i < n)%nat -> Rabs (f i - g i) <= e) ->
  Rabs (rsum n (fun i => w i * f i) - rsum n (fun i => w i * g i)) <= rsum n w * e.
Proof.
  intros Pw H. rewrite <- rsum_minus, <- rsum_scal_r. induction n as [|m IH]; cbn [rsum]; [rewrite Rabs_R0; lra|].
  eapply Rle_trans; [apply Rabs_triang|]. apply Rplus_le_compat; [apply IH; intros; [apply Pw|apply H]; lia|].
  replace (w m * f m - w m * g m) with (w m * (f m - g m)) by ring. assert (P := Pw m ltac:(lia)).
  rewrite Rabs_mult, (Rabs_pos_eq (w m)) by lra. apply Rmult_le_compat_l; [lra|]. apply H. lia.
Qed.
(** Gauss-Jacobi rules: error 2 mu M / (2n)! where mu is the integral of the weight function *)
Theorem C71_gauss_jacobi : forall G stev junk a b n p0 w0, gamma_like G -> (2 <= n)%nat ->
  (forall d e, gj_diag n (INR a) (INR b) junk = Ok d -> gj_subdiag n (INR a) (INR b) junk = Ok e -> stev_contract n d e (stev n d e)) ->
  exists x w, gauss_jacobi G stev junk n (INR a) (INR b) p0 w0 = Ok (x, w) /\
    exists mu, integral (fun t => (1 - t) ^ a * (1 + t) ^ b) mu /\
    forall M A f, smooth_line (2 * n) M A f -> exists I, integral (fun t => (1 - t) ^ a * (1 + t) ^ b * f t) I /\
      Rabs (rsum n (fun i => w i * f (x i)) - I) <= 2 * mu * (M / INR (fact (2 * n))).
Proof.
  intros G stev junk a b n p0 w0 HG Hn HS. destruct (C58_gauss_jacobi_exact G stev junk a b n p0 w0 HG Hn HS) as (x & w & E & Ex & Pw & In & _).
  exists x, w. split; [exact E|]. set (mu := rsum n w). set (W := fun t => (1 - t) ^ a * (1 + t) ^ b).
  assert (I1 : integral W mu).
  { assert (K := Ex (fun _ => 1) ltac:(apply poly_const; lia)). unfold exact_on in K. unfold mu. rewrite (rsum_ext n w (fun j => w j * 1)) by (intros; ring). eapply integral_ext; [|exact K]. intros t. unfold W. ring. }
  exists mu. split; [exact I1|]. intros M A f (F & F0 & D & B & _).
  set (deg := (2 * n - 1)%nat). replace (2 * n)%nat with (S deg) in * by (unfold deg; lia).
  set (c := fun k => F k 0 / INR (fact k)). set (e := M / INR (fact (S deg))).
  assert (TB : forall t, -1 <= t <= 1 -> Rabs (f t - poly deg c t) <= e) by (intros t Ht; rewrite <- F0; apply taylor_bound; assumption).
  assert (IP : integral (fun t => W t * poly deg c t) (rsum n (fun j => w j * poly deg c (x j)))).
  { apply Ex. exists c. intros t. reflexivity. }
  assert (Wp : forall t, -1 <= t <= 1 -> 0 <= W t) by (intros t Ht; apply Rmult_le_pos; apply pow_le; lra).
  assert (IF : exists I, integral (fun t => W t * f t) I).
  { assert (X : ex_RInt (fun t => W t * f t) (-1) 1).
    { apply (ex_RInt_continuous (V := R_CompleteNormedModule)). intros z Hz. rewrite Rmin_left, Rmax_right in Hz by lra.
      apply continuity_pt_filterlim. apply continuity_pt_mult.
      - apply derivable_continuous_pt. unfold W. exists (INR a * (1 - z) ^ pred a * (0 - 1) * (1 + z) ^ b + (1 - z) ^ a * (INR b * (1 + z) ^ pred b * (0 + 1))).
        apply der_mul; apply der_pow; [apply der_sub|apply der_add]; (apply der_const || apply der_id).
      - apply derivable_continuous_pt. exists (F 1%nat z). apply (der_ext (F 0%nat)); [exact F0|]. apply D; [unfold deg; lia|exact Hz]. }
    destruct X as (I & HI). exists I. exact HI. }
  destruct IF as (I & HI). exists I. split; [exact HI|].
  set (S0 := rsum n (fun i => w i * f (x i))). set (S1 := rsum n (fun j => w j * poly deg c (x j))) in IP.
  assert (B1 : Rabs (S0 - S1) <= mu * e).
  { apply positive_close; [exact Pw|]. intros i Hi. apply TB. destruct (In i Hi) as (Q & _). lra. }
  assert (B2 : Rabs (I - S1) <= mu * e).
  { assert (H : is_RInt (fun t => W t * f t - W t * poly deg c t) (-1) 1 (I - S1)) by (exact (is_RInt_minus _ _ (-1) 1 I S1 HI IP)).
    assert (Hb : is_RInt (fun t => e * W t) (-1) 1 (e * mu)) by (exact (is_RInt_scal W (-1) 1 e mu I1)).
    rewrite (Rmult_comm mu e). apply (norm_RInt_le (V := R_NormedModule) (fun t => W t * f t - W t * poly deg c t) (fun t => e * W t) (-1) 1); [lra| |exact H|exact Hb].
    intros t Ht. change (Rabs (W t * f t - W t * poly deg c t) <= e * W t). replace (W t * f t - W t * poly deg c t) with (W t * (f t - poly deg c t)) by ring.
    rewrite Rabs_mult, (Rabs_pos_eq (W t)) by (apply Wp; exact Ht). rewrite Rmult_comm. apply Rmult_le_compat_r; [apply Wp; exact Ht|apply TB; exact Ht]. }
  replace (S0 - I) with ((S0 - S1) + - (I - S1)) by ring. eapply Rle_trans; [apply Rabs_triang|]. rewrite Rabs_Ropp. lra.
Qed.
Print Assumptions C71_gauss_jacobi.

(** non-vacuity: exp on the line and exp(x+y+z) on the cube *)
Lemma exp_line n c K : exp (1 + c) <= K -> smooth_line n K (INR n * K) (fun t => exp (t + c)).
Proof.
  intros HK. assert (Kp : 0 < K) by (eapply Rlt_le_trans; [apply exp_pos|exact HK]).
  exists (fun _ t => exp (t + c)). split; [reflexivity|]. split.
  - intros k t _ _. replace (exp (t + c)) with (exp (t + c) * (1 + 0)) by ring. apply (derivable_pt_lim_comp (fun t => t + c) exp); [apply der_add; [apply der_id|apply der_const]|apply derivable_pt_lim_exp].
  - assert (Bd : forall t, t <= 1 -> Rabs (exp (t + c)) <= K).
    { intros t Ht. rewrite Rabs_pos_eq by (apply Rlt_le, exp_pos). eapply Rle_trans; [|exact HK]. destruct (Req_dec t 1) as [-> |N]; [lra|]. apply Rlt_le, exp_increasing. lra. }
    split; [intros t Ht; apply Bd; lra|]. rewrite <- rsum_const. apply rsum_le. intros k Hk. rewrite <- (Rmult_1_r K). unfold Rdiv.
    apply Rmult_le_compat; [apply Rabs_pos|apply Rlt_le, Rinv_0_lt_compat, INR_fact_lt_0|apply Bd; lra|].
    rewrite <- Rinv_1. apply Rinv_le_contravar; [lra|]. replace 1 with (INR 1) by reflexivity. apply le_INR, lt_O_fact.
Qed.
Lemma exp_int c : integral (fun t => exp (t + c)) ((exp 1 - exp (-1)) * exp c).
Proof.
  unfold integral. replace ((exp 1 - exp (-1)) * exp c) with (minus (exp (1 + c)) (exp (-1 + c))).
  - apply (is_RInt_derive (V := R_CompleteNormedModule) (fun t => exp (t + c)) (fun t => exp (t + c))).
    + intros t _. apply is_derive_Reals. replace (exp (t + c)) with (exp (t + c) * (1 + 0)) by ring. apply (derivable_pt_lim_comp (fun t => t + c) exp); [apply der_add; [apply der_id|apply der_const]|apply derivable_pt_lim_exp].
    + intros t _. apply continuity_pt_filterlim. apply derivable_continuous_pt. exists (exp (t + c) * (1 + 0)). apply (derivable_pt_lim_comp (fun t => t + c) exp); [apply der_add; [apply der_id|apply der_const]|apply derivable_pt_lim_exp].
  - unfold minus, plus, opp; cbn. rewrite !exp_plus. ring.
Qed.
Example C71_nonvacuous : smooth_line 10 3 30 exp /\ smooth_cube 10 27 270 (fun x y z => exp (x + y + z)) /\ exists v, integral3 (fun x y z => exp (x + y + z)) v.
Proof.
  assert (E3 : exp 3 <= 27). { replace 3 with (1 + 1 + 1) by ring. rewrite !exp_plus. assert (P := exp_pos 1). assert (Q := exp_le_3). assert (exp 1 * exp 1 <= 3 * 3) by (apply Rmult_le_compat; lra). replace 27 with (3 * 3 * 3) by ring. apply Rmult_le_compat; nra. }
  assert (Le : forall u v, u <= v -> exp u <= exp v) by (intros u v H; destruct (Req_dec u v) as [-> |N]; [lra|apply Rlt_le, exp_increasing; lra]).
  assert (Ext : forall n M A f g, (forall t, f t = g t) -> smooth_line n M A f -> smooth_line n M A g).
  { intros n M A f g E (F & F0 & H). exists F. split; [intros t; rewrite F0; apply E|exact H]. }
  split; [|split].
  - apply (Ext _ _ _ (fun t => exp (t + 0))); [intros; f_equal; ring|]. replace 30 with (INR 10 * 3) by (rewrite INR_IZR_INZ; cbn; ring). apply exp_line. replace (1 + 0) with 1 by ring. apply exp_le_3.
  - replace 270 with (INR 10 * 27) by (rewrite INR_IZR_INZ; cbn; ring). repeat split; intros u v Hu Hv; (apply (Ext _ _ _ (fun t => exp (t + (u + v)))); [intros; f_equal; ring|apply exp_line; eapply Rle_trans; [apply Le|exact E3]; lra]).
  - exists ((exp 1 - exp (-1)) * ((exp 1 - exp (-1)) * ((exp 1 - exp (-1)) * exp 0))).
    exists (fun z => (exp 1 - exp (-1)) * ((exp 1 - exp (-1)) * exp (z + 0))). split.
    + intros z. exists (fun y => (exp 1 - exp (-1)) * exp (y + z)). split.
      * intros y. apply (integral_ext (fun t => exp (t + (y + z)))); [intros; f_equal; ring|]. apply exp_int.
      * replace (z + 0) with z by ring. apply Proof_Gcl5.int_scal. apply exp_int.
    + apply Proof_Gcl5.int_scal, Proof_Gcl5.int_scal, exp_int.
Qed.
