(** The setup of examples/average in rounded arithmetic: surfaces and regions. *)
From Coq Require Import Reals List Arith ZArith Lra Lia Psatz Bool.
Import ListNotations.
Require Import Verif.Base Verif.NatSum Verif.RBase Verif.RSum Verif.Spec_Patch Verif.Spec_Full Verif.Model_Geom Verif.Model_Conn Verif.Model_Refine Verif.Model_Full
  Verif.Proof_Bdy Verif.Prop_Patch Verif.Proof_Full2 Verif.Prop_Full Verif.Model_Average Verif.Spec_Average Verif.Spec_Dump Verif.Prop_Init Verif.Proof_Average Verif.Proof_Dump Verif.Proof_Average4
  Verif.Spec_Float Verif.Float_Base Verif.Spec_FloatRefine Verif.Model_FloatRefine Verif.Proof_FloatRefine Verif.Model_FloatPatch Verif.Spec_FloatPatch Verif.Proof_FloatPatch2 Verif.Proof_FloatPatch3
  Verif.Proof_FloatRun2 Verif.Spec_FloatSetup Verif.Model_FloatSetup Verif.Proof_FloatSetup Verif.Model_Patch.
Local Open Scope R_scope.

(** two distances *)
Lemma norm_move x y z x' y' z' E : Rabs (x' - x) <= E -> Rabs (y' - y) <= E -> Rabs (z' - z) <= E ->
  sqrt (x' * x' + y' * y' + z' * z') <= sqrt (x * x + y * y + z * z) + 2 * E.
Proof.
  intros Hx Hy Hz. assert (HE : 0 <= E) by (eapply Rle_trans; [apply Rabs_pos|exact Hx]). apply Rabs_in in Hx, Hy, Hz.
  set (S := x * x + y * y + z * z). assert (HS : 0 <= S) by (unfold S; nra).
  assert (Ps := sqrt_pos S). assert (Es := sqrt_sqrt S HS).
  rewrite <- (sqrt_square (sqrt S + 2 * E)) by lra. apply sqrt_le_1_alt.
  set (r := sqrt S) in *. clearbody r. set (a := x' - x) in *. set (b := y' - y) in *. set (c := z' - z) in *.
  replace x' with (x + a) by (unfold a; ring). replace y' with (y + b) by (unfold b; ring). replace z' with (z + c) by (unfold c; ring). clearbody a b c.
  assert (T : x * a + y * b + z * c <= 2 * r * E).
  { assert (A : forall p q, (- E <= q <= E) -> p * q <= Rabs p * E). { intros p q Hq. assert (Rabs (p * q) <= Rabs p * E) by (rewrite Rabs_mult; apply Rmult_le_compat_l; [apply Rabs_pos|apply Rabs_le; exact Hq]). assert (Z := Rle_abs (p * q)). lra. }
    assert (A1 := A x a Hx). assert (A2 := A y b Hy). assert (A3 := A z c Hz).
    assert (B : Rabs x + Rabs y + Rabs z <= 2 * r).
    { assert (Q : forall p, Rabs p * Rabs p = p * p) by (intros p; rewrite <- Rabs_mult; apply Rabs_right; nra). assert (Q1 := Q x). assert (Q2 := Q y). assert (Q3 := Q z).
      assert (P1 := Rabs_pos x). assert (P2 := Rabs_pos y). assert (P3 := Rabs_pos z). unfold S in Es. set (p := Rabs x) in *. set (q := Rabs y) in *. set (w := Rabs z) in *. clearbody p q w.
      rewrite <- Q1, <- Q2, <- Q3 in Es. clear - Es P1 P2 P3 Ps. apply Rnot_lt_le. intros L. assert (L2 : (2 * r) * (2 * r) < (p + q + w) * (p + q + w)) by (apply Rmult_le_0_lt_compat; lra). assert (D1 := Rle_0_sqr (p - q)). assert (D2 := Rle_0_sqr (q - w)). assert (D3 := Rle_0_sqr (p - w)). assert (D4 := Rle_0_sqr r). unfold Rsqr in *. nra. }
    nra. }
  assert (T2 : a * a + b * b + c * c <= 4 * (E * E)) by nra. unfold S in Es. nra.
Qed.
Lemma norm_diff x y z x' y' z' E : Rabs (x' - x) <= E -> Rabs (y' - y) <= E -> Rabs (z' - z) <= E ->
  Rabs (sqrt (x' * x' + y' * y' + z' * z') - sqrt (x * x + y * y + z * z)) <= 2 * E.
Proof.
  intros Hx Hy Hz. assert (A := norm_move x y z x' y' z' E Hx Hy Hz). rewrite Rabs_minus_sym in Hx, Hy, Hz. assert (B := norm_move x' y' z' x y z E Hx Hy Hz). apply Rabs_le. lra.
Qed.
Lemma norm_le x y z M : Rabs x <= M -> Rabs y <= M -> Rabs z <= M -> sqrt (x * x + y * y + z * z) <= 2 * M.
Proof.
  intros Hx Hy Hz. assert (A := norm_move 0 0 0 x y z M). rewrite !Rminus_0_r in A. specialize (A Hx Hy Hz). replace (0 * 0 + 0 * 0 + 0 * 0) with 0 in A by ring. rewrite sqrt_0 in A. lra.
Qed.

Section S.
Context (u : R) (rnd : R -> R).
Hypothesis HD : double_like u rnd.
Let U1 := dl_u1 u rnd HD.
Let Hr := dl_r u rnd HD.
Let rw := rnd_w u U1 rnd Hr.

Lemma sqrt_within m t : within u m t -> within u m (sqrt t).
Proof.
  intros W. assert (P := within_pos u U1 m t W). destruct W as (W1 & W2). assert (Q := pw_pos u U1 m). assert (Q1 := pw_le1 u U1 m). assert (Q2 := pw_ge1 u U1 m).
  unfold within. set (a := (1 - u) ^ m) in *. clearbody a. split.
  - rewrite <- (sqrt_square a) by lra. apply sqrt_le_1_alt. nra.
  - rewrite <- (sqrt_square (/ a)) by lra. apply sqrt_le_1_alt. nra.
Qed.

(** the rounded distance from the origin *)
Lemma norm_round x y z : exists t, within u 4 t /\ rnd (sqrt (rnd (rnd (rnd (x * x) + rnd (y * y)) + rnd (z * z)))) = sqrt (x * x + y * y + z * z) * t.
Proof.
  destruct (rw (x * x)) as (t1 & W1 & ->). destruct (rw (y * y)) as (t2 & W2 & ->). destruct (rw (z * z)) as (t3 & W3 & ->).
  destruct (rw (x * x * t1 + y * y * t2)) as (t4 & W4 & ->). destruct (rw ((x * x * t1 + y * y * t2) * t4 + z * z * t3)) as (t5 & W5 & ->).
  set (S := x * x + y * y + z * z). set (W := ((x * x * t1 + y * y * t2) * t4 + z * z * t3) * t5).
  assert (HS : 0 <= S) by (unfold S; nra).
  assert (E : exists t, within u 3 t /\ W = S * t).
  { assert (A1 : within u 3 (t1 * t4 * t5)) by (apply (within_mul u U1 2 1); [apply (within_mul u U1 1 1); assumption|assumption]).
    assert (A2 : within u 3 (t2 * t4 * t5)) by (apply (within_mul u U1 2 1); [apply (within_mul u U1 1 1); assumption|assumption]).
    assert (A3 : within u 3 (t3 * t5)) by (apply (within_le u U1 2); [lia|]; apply (within_mul u U1 1 1); assumption).
    assert (EW : W = x * x * (t1 * t4 * t5) + y * y * (t2 * t4 * t5) + z * z * (t3 * t5)) by (unfold W; ring). rewrite EW. clear EW W. unfold within in A1, A2, A3.
    set (b1 := t1 * t4 * t5) in *. set (b2 := t2 * t4 * t5) in *. set (b3 := t3 * t5) in *. clearbody b1 b2 b3.
    assert (Sx : 0 <= x * x) by nra. assert (Sy : 0 <= y * y) by nra. assert (Sz : 0 <= z * z) by nra.
    destruct (Req_dec S 0) as [S0|S0].
    - exists 1. split; [apply (within_1 u U1)|]. unfold S in *. assert (Qx : x * x = 0) by lra. assert (Qy : y * y = 0) by lra. assert (Qz : z * z = 0) by lra. rewrite Qx, Qy, Qz. ring.
    - exists ((x * x * b1 + y * y * b2 + z * z * b3) / S). split; [|field; exact S0]. assert (PS : 0 < S) by lra. unfold within. set (lo := (1 - u) ^ 3) in *. set (hi := / lo) in *. clearbody hi lo. split.
      + apply (Rmult_le_reg_r S _ _ PS). replace ((x * x * b1 + y * y * b2 + z * z * b3) / S * S) with (x * x * b1 + y * y * b2 + z * z * b3) by (field; exact S0).
        assert (x * x * lo <= x * x * b1) by (apply Rmult_le_compat_l; lra). assert (y * y * lo <= y * y * b2) by (apply Rmult_le_compat_l; lra). assert (z * z * lo <= z * z * b3) by (apply Rmult_le_compat_l; lra). unfold S. lra.
      + apply (Rmult_le_reg_r S _ _ PS). replace ((x * x * b1 + y * y * b2 + z * z * b3) / S * S) with (x * x * b1 + y * y * b2 + z * z * b3) by (field; exact S0).
        assert (x * x * b1 <= x * x * hi) by (apply Rmult_le_compat_l; lra). assert (y * y * b2 <= y * y * hi) by (apply Rmult_le_compat_l; lra). assert (z * z * b3 <= z * z * hi) by (apply Rmult_le_compat_l; lra). unfold S. lra. }
  destruct E as (t & Wt & ->). destruct (rw (sqrt (S * t))) as (t6 & W6 & ->).
  exists (sqrt t * t6). split; [apply (within_mul u U1 3 1); [apply sqrt_within; exact Wt|exact W6]|].
  rewrite sqrt_mult by (try exact HS; apply Rlt_le, (within_pos u U1 3), Wt). ring.
Qed.
Lemma radius_close x y z x' y' z' M E : INR 4 * u < 1 -> Rabs x <= M -> Rabs y <= M -> Rabs z <= M -> Rabs (x' - x) <= E -> Rabs (y' - y) <= E -> Rabs (z' - z) <= E ->
  Rabs (rnd (sqrt (rnd (rnd (rnd (x' * x') + rnd (y' * y')) + rnd (z' * z')))) - sqrt (x * x + y * y + z * z)) <= radius_err u M E.
Proof.
  intros H4 Mx My Mz Hx Hy Hz. destruct (norm_round x' y' z') as (t & W & ->).
  assert (D := norm_diff _ _ _ _ _ _ E Hx Hy Hz).
  assert (Mt : forall p p', Rabs p <= M -> Rabs (p' - p) <= E -> Rabs p' <= M + E) by (intros p p' A B; replace p' with (p + (p' - p)) by ring; eapply Rle_trans; [apply Rabs_triang|]; lra).
  assert (B := norm_le x' y' z' (M + E) (Mt _ _ Mx Hx) (Mt _ _ My Hy) (Mt _ _ Mz Hz)). assert (P := sqrt_pos (x' * x' + y' * y' + z' * z')).
  set (s := sqrt (x' * x' + y' * y' + z' * z')) in *. set (s0 := sqrt (x * x + y * y + z * z)) in *. clearbody s s0.
  assert (G := within_gamma u U1 4 t H4 W). assert (G0 := gamma_nonneg u U1 4 H4).
  replace (s * t - s0) with (s * (t - 1) + (s - s0)) by ring. eapply Rle_trans; [apply Rabs_triang|]. unfold radius_err.
  rewrite Rabs_mult, (Rabs_right s) by lra. assert (s * Rabs (t - 1) <= 2 * (M + E) * gamma u 4) by (apply Rmult_le_compat; [exact P|apply Rabs_pos|exact B|exact G]). lra.
Qed.
Lemma cylinder_is x y : rnd (sqrt (rnd (rnd (x * x) + rnd (y * y)))) = rnd (sqrt (rnd (rnd (rnd (x * x) + rnd (y * y)) + rnd (0 * 0)))).
Proof. rewrite Rmult_0_l, (dl_0 u rnd HD), Rplus_0_r, (dl_idem u rnd HD). reflexivity. Qed.
Lemma cylinder_close x y x' y' M E : INR 4 * u < 1 -> Rabs x <= M -> Rabs y <= M -> Rabs (x' - x) <= E -> Rabs (y' - y) <= E ->
  Rabs (rnd (sqrt (rnd (rnd (x' * x') + rnd (y' * y')))) - sqrt (x * x + y * y)) <= radius_err u M E.
Proof.
  intros H4 Mx My Hx Hy. rewrite cylinder_is. replace (x * x + y * y) with (x * x + y * y + 0 * 0) by ring.
  apply radius_close; try assumption; rewrite ?Rminus_0_r, Rabs_R0; eapply Rle_trans; [apply Rabs_pos|exact Mx|apply Rabs_pos|exact Hx].
Qed.
Lemma radius_err_ge M E : INR 4 * u < 1 -> 0 <= M -> 0 <= E -> E <= radius_err u M E.
Proof. intros H4 HM HE. unfold radius_err. assert (G0 := gamma_nonneg u U1 4 H4). assert (0 <= gamma u 4 * (M + E)) by (apply Rmult_le_pos; lra). lra. Qed.

(** * the test of check_bdy *)
Lemma tol_w : exists t, within u 1 t /\ rnd (/ 10 ^ 8) = / 10 ^ 8 * t.
Proof. apply rw. Qed.
Lemma nearf_true a v : nearf rnd a v = true <-> Rabs (rnd (a - v)) <= rnd (/ 10 ^ 8).
Proof. unfold nearf. destruct (Rle_dec _ _); split; intros; try assumption; try reflexivity; [discriminate|contradiction]. Qed.
Lemma nearf_in a q v D : INR 2 * u < 1 -> Rabs (a - q) <= D -> nearf rnd a v = true -> Rabs (q - v) <= (1 + gamma u 2) * / 10 ^ 8 + D.
Proof.
  intros H2 HD' H. apply nearf_true in H. destruct tol_w as (t & W & E). rewrite E in H. clear E. destruct (rw (a - v)) as (t' & W' & E). rewrite E in H. clear E.
  assert (Pe : 0 < / 10 ^ 8) by (apply Rinv_0_lt_compat, pow_lt; lra). set (e := / 10 ^ 8) in *. clearbody e.
  assert (P' := within_pos u U1 1 t' W'). rewrite Rabs_mult, (Rabs_right t') in H by lra.
  assert (W2 : within u 2 (t * / t')) by (apply (within_mul u U1 1 1); [exact W|apply (within_inv u U1); exact W']).
  assert (G := within_gamma u U1 2 _ H2 W2). apply Rabs_in in G.
  assert (A : Rabs (a - v) <= e * (t * / t')) by (apply (Rmult_le_reg_r t' _ _ P'); replace (e * (t * / t') * t') with (e * t) by (field; lra); exact H).
  assert (B : e * (t * / t') <= (1 + gamma u 2) * e) by (rewrite Rmult_comm; apply Rmult_le_compat_r; lra).
  replace (q - v) with ((a - v) - (a - q)) by ring. unfold Rminus at 1. eapply Rle_trans; [apply Rabs_triang|]. rewrite Rabs_Ropp. lra.
Qed.
Lemma nearf_out a q v D : INR 2 * u < 1 -> Rabs (a - q) <= D -> Rabs (q - v) <= (1 - gamma u 2) * / 10 ^ 8 - D -> nearf rnd a v = true.
Proof.
  intros H2 HD' H. apply nearf_true. destruct tol_w as (t & W & ->). destruct (rw (a - v)) as (t' & W' & ->).
  assert (Pe : 0 < / 10 ^ 8) by (apply Rinv_0_lt_compat, pow_lt; lra). set (e := / 10 ^ 8) in *. clearbody e.
  assert (P' := within_pos u U1 1 t' W'). rewrite Rabs_mult, (Rabs_right t') by lra.
  assert (W2 : within u 2 (t * / t')) by (apply (within_mul u U1 1 1); [exact W|apply (within_inv u U1); exact W']).
  assert (G := within_gamma u U1 2 _ H2 W2). apply Rabs_in in G.
  assert (A : Rabs (a - v) <= (1 - gamma u 2) * e) by (replace (a - v) with ((a - q) + (q - v)) by ring; eapply Rle_trans; [apply Rabs_triang|]; lra).
  replace (e * t) with (e * (t * / t') * t') by (field; lra). apply Rmult_le_compat_r; [lra|]. eapply Rle_trans; [exact A|]. rewrite Rmult_comm. apply Rmult_le_compat_l; lra.
Qed.
Lemma four_two : INR 4 * u < 1 -> INR 2 * u < 1.
Proof. cbn [INR]. assert (H := dl_u u rnd HD). lra. Qed.

Lemma check_in a x tag v M E : INR 4 * u < 1 -> (forall d, (d < 3)%nat -> Rabs (x d) <= M /\ Rabs (a d - x d) <= E) ->
  check_bdyf rnd a tag v = true -> (tag <= 4)%nat /\ surface_distance tag v x <= (1 + gamma u 2) * / 10 ^ 8 + radius_err u M E.
Proof.
  intros H4 H C. destruct (H 0%nat ltac:(lia)) as (M0 & E0). destruct (H 1%nat ltac:(lia)) as (M1 & E1). destruct (H 2%nat ltac:(lia)) as (M2 & E2).
  assert (PM : 0 <= M) by (eapply Rle_trans; [apply Rabs_pos|exact M0]). assert (PE : 0 <= E) by (eapply Rle_trans; [apply Rabs_pos|exact E0]).
  assert (K := radius_err_ge M E H4 PM PE). assert (H2 := four_two H4). unfold check_bdyf in C. cbv zeta in C. unfold surface_distance.
  destruct tag as [|[|[|[|[|tag]]]]]; [| | | | |discriminate]; (split; [lia|]).
  - apply (nearf_in (a 0%nat)); [exact H2|lra|exact C].
  - apply (nearf_in (a 1%nat)); [exact H2|lra|exact C].
  - apply (nearf_in (a 2%nat)); [exact H2|lra|exact C].
  - eapply nearf_in; [exact H2| |exact C]. apply cylinder_close; assumption.
  - eapply nearf_in; [exact H2| |exact C]. apply radius_close; assumption.
Qed.
Lemma check_out a x tag v M E : INR 4 * u < 1 -> (forall d, (d < 3)%nat -> Rabs (x d) <= M /\ Rabs (a d - x d) <= E) ->
  (tag <= 4)%nat -> surface_distance tag v x <= (1 - gamma u 2) * / 10 ^ 8 - radius_err u M E -> check_bdyf rnd a tag v = true.
Proof.
  intros H4 H Ht C. destruct (H 0%nat ltac:(lia)) as (M0 & E0). destruct (H 1%nat ltac:(lia)) as (M1 & E1). destruct (H 2%nat ltac:(lia)) as (M2 & E2).
  assert (PM : 0 <= M) by (eapply Rle_trans; [apply Rabs_pos|exact M0]). assert (PE : 0 <= E) by (eapply Rle_trans; [apply Rabs_pos|exact E0]).
  assert (K := radius_err_ge M E H4 PM PE). assert (H2 := four_two H4). unfold check_bdyf. cbv zeta. unfold surface_distance in C.
  destruct tag as [|[|[|[|[|tag]]]]]; [| | | | |lia].
  - apply (nearf_out (a 0%nat) (x 0%nat) v (radius_err u M E)); [exact H2|lra|exact C].
  - apply (nearf_out (a 1%nat) (x 1%nat) v (radius_err u M E)); [exact H2|lra|exact C].
  - apply (nearf_out (a 2%nat) (x 2%nat) v (radius_err u M E)); [exact H2|lra|exact C].
  - eapply nearf_out; [exact H2| |exact C]. apply cylinder_close; assumption.
  - eapply nearf_out; [exact H2| |exact C]. apply radius_close; assumption.
Qed.

(** * cell centres *)
Definition cenf (N : nat -> nat -> nat) (X : nat -> nat -> R) (c d : nat) : R := rnd (fold_up 8 (fun l a => rnd (a + X (N c l) d)) 0 / 8).
Lemma cell_centref_ok m N X c d : cdescribes m N X -> (c < cm_cells m)%nat -> (d < 3)%nat -> cell_centref rnd m c d = Ok (cenf N X c d).
Proof.
  intros (HN & HX) Hc Hd. unfold cell_centref.
  edestruct (loop_inv (fun n (a : R) => a = fold_up n (fun l a => rnd (a + X (N c l) d)) 0) 8) as (a & E & Ha).
  3:{ rewrite E. cbn [bind]. rewrite Ha. reflexivity. }
  - reflexivity.
  - intros l a Hl Ha. cbn beta. destruct (HN c l Hc Hl) as (-> & Hn). cbn [bind]. rewrite HX by assumption. cbn [bind]. eexists. split; [reflexivity|]. cbn [fold_up]. rewrite <- Ha. reflexivity.
Qed.
Lemma sum_ph f m : exists ph, (forall k, (k < m)%nat -> within u m (ph k)) /\ fold_up m (fun l a => rnd (a + f l)) 0 = rsum m (fun k => f k * ph k).
Proof.
  induction m as [|m (ph & P & E)]; cbn [fold_up]; [exists (fun _ => 1); split; [lia|reflexivity]|].
  rewrite E. match goal with |- context [rnd ?a] => destruct (rw a) as (t' & W' & ->) end.
  exists (fun k => if Nat.eqb k m then t' else ph k * t'). split.
  - intros k Hk. destruct (Nat.eqb_spec k m) as [-> |Nk]; [apply (within_le u U1 1); [lia|exact W']|].
    replace (S m) with (m + 1)%nat by lia. apply (within_mul u U1); [apply P; lia|exact W'].
  - cbn [rsum]. rewrite Nat.eqb_refl. rewrite (rsum_ext m (fun k => f k * (if Nat.eqb k m then t' else ph k * t')) (fun k => f k * ph k * t')).
    + rewrite rsum_scal_r. ring.
    + intros k Hk. destruct (Nat.eqb_spec k m); [lia|]. ring.
Qed.
Lemma rsum_abs_le m f B : (forall k, (k < m)%nat -> Rabs (f k) <= B) -> rsum m (fun k => Rabs (f k)) <= INR m * B.
Proof. intros H. induction m as [|m IH]; [cbn; lra|]. cbn [rsum]. rewrite S_INR. assert (A := H m ltac:(lia)). assert (C := IH ltac:(intros; apply H; lia)). lra. Qed.
Lemma cenf_err N X c d M : INR 9 * u < 1 -> (forall l, (l < 8)%nat -> Rabs (X (N c l) d) <= M) -> Rabs (cenf N X c d - centre N X c d) <= gamma u 9 * M.
Proof.
  intros H9 HM. unfold cenf, centre, cell_mean. destruct (sum_ph (fun l => X (N c l) d) 8) as (ph & P & ->). match goal with |- context [rnd ?a] => destruct (rw a) as (t' & W' & ->) end.
  replace (rsum 8 (fun k => X (N c k) d * ph k) / 8 * t') with (rsum 8 (fun k => X (N c k) d / 8 * (ph k * t'))) by (cbn [rsum]; field).
  replace (rsum 8 (fun l => X (N c l) d) / 8) with (rsum 8 (fun k => X (N c k) d / 8)) by (cbn [rsum]; field).
  eapply Rle_trans; [apply (sum_gamma u U1 9 8 (fun k => X (N c k) d / 8) (fun k => ph k * t') H9)|].
  - intros k Hk. apply (within_mul u U1 8 1); [apply P, Hk|exact W'].
  - apply Rmult_le_compat_l; [apply gamma_nonneg; [exact U1|exact H9]|]. eapply Rle_trans; [apply (rsum_abs_le 8 _ (M / 8))|cbn [INR]; lra].
    intros k Hk. unfold Rdiv. rewrite Rabs_mult, (Rabs_right (/ 8)) by lra. apply Rmult_le_compat_r; [lra|]. apply HM, Hk.
Qed.
Lemma centre_bound N X c d M : (forall l, (l < 8)%nat -> Rabs (X (N c l) d) <= M) -> Rabs (centre N X c d) <= M.
Proof.
  intros HM. unfold centre, cell_mean. cbn [rsum].
  assert (Q : forall l, (l < 8)%nat -> - M <= X (N c l) d <= M) by (intros l Hl; apply Rabs_in, HM, Hl).
  assert (Q0 := Q 0%nat ltac:(lia)). assert (Q1 := Q 1%nat ltac:(lia)). assert (Q2 := Q 2%nat ltac:(lia)). assert (Q3 := Q 3%nat ltac:(lia)).
  assert (Q4 := Q 4%nat ltac:(lia)). assert (Q5 := Q 5%nat ltac:(lia)). assert (Q6 := Q 6%nat ltac:(lia)). assert (Q7 := Q 7%nat ltac:(lia)). apply Rabs_le. lra.
Qed.
End S.
