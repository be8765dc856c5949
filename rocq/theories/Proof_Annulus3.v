(** Determinants of the half annulus. *)
From Coq Require Import Reals List Arith NArith ZArith Lra Lia.
Import ListNotations.
Require Import Verif.Base Verif.RBase Verif.RSum Verif.RDer Verif.Poly Verif.Rolle Verif.Spec_Mat Verif.Spec_Lagrange Verif.Lagrange_Math
  Verif.Spec_High Verif.Spec_Annulus Verif.Proof_High4 Verif.Proof_Annulus2.
Local Open Scope R_scope.

Lemma vertex1_increasing p : (1 <= p)%nat -> increasing (p + 1) (vertex1 p).
Proof.
  intros Hp i Hi. assert (W := vertex1_inc p i (S i) Hp ltac:(lia)). assert (0 < 2 / INR p) by (apply Rdiv_lt_0_compat; [lra|apply lt_0_INR; lia]). lra.
Qed.
Lemma vertex1_distinct p : (1 <= p)%nat -> distinct (p + 1) (vertex1 p).
Proof. intros Hp. apply increasing_distinct, vertex1_increasing, Hp. Qed.

Lemma angle_diff mpi p e i m : (1 <= p)%nat -> ann_theta mpi p e m - ann_theta mpi p e i = (INR m - INR i) / INR p * (mpi / 2).
Proof. intros Hp. unfold ann_theta. field. apply not_0_INR. lia. Qed.
Lemma angle_vertex mpi p i m : (1 <= p)%nat -> (INR m - INR i) / INR p * (mpi / 2) = mpi / 4 * (vertex1 p m - vertex1 p i).
Proof. intros Hp. unfold vertex1. field. apply not_0_INR. lia. Qed.
Lemma radius_vertex p j : (1 <= p)%nat -> ann_r p j = 3 / 2 + 1 * vertex1 p j.
Proof. intros Hp. unfold ann_r, vertex1. field. apply not_0_INR. lia. Qed.

(** slope as a sum *)
Definition chord (mpi : R) (p i : nat) : R := rsum (p + 1) (fun m => sin ((INR m - INR i) / INR p * (mpi / 2)) * dell (p + 1) (vertex1 p) m (vertex1 p i)).
Lemma chord_ok mpi p i : chord_slope mpi p i (chord mpi p i).
Proof. apply interp_der. Qed.
Lemma chord_unique mpi p i s : chord_slope mpi p i s -> s = chord mpi p i.
Proof. intros H. apply (interp_eq_iff_der _ _ _ _ _ H). Qed.

(** geometry given by the positions of the half annulus *)
Lemma det_formula mpi p e i j k (F : nat -> R -> R -> R -> R) (c : nat -> nat -> R) D : let n := (p + 1)%nat in
  (1 <= p)%nat -> (i <= p)%nat -> (j <= p)%nat -> (k <= p)%nat ->
  (forall d x y z, F d x y z = field3 n (vertex1 p) (c d) x y z) ->
  (forall d a b g, (d < 3)%nat -> (a <= p)%nat -> (b <= p)%nat -> (g <= p)%nat -> c d (a + b * n + g * n * n)%nat = ann_pos mpi p e a b g d) ->
  jac_det F (vertex1 p i) (vertex1 p j) (vertex1 p k) D -> D = ann_r p j * chord mpi p i.
Proof.
  intros n Hp Hi Hj Hk HF Hc HD. assert (Dv := vertex1_distinct p Hp). fold n in Dv. set (V := vertex1 p) in *.
  set (cs := fun a => cos (ann_theta mpi p e a)). set (sn := fun a => sin (ann_theta mpi p e a)).
  set (A := rsum n (fun m => cs m * dell n V m (V i))). set (B := rsum n (fun m => sn m * dell n V m (V i))).
  assert (Ext : forall f g, (forall m, (m <= p)%nat -> f m = g m) -> rsum n f = rsum n g) by (intros f g H; apply rsum_ext; intros m Hm; apply H; unfold n in Hm; lia).
  assert (One : forall x, rsum n (fun m => V m * dell n V m x) = 1) by (intros x; rewrite <- (slope_affine n V 0 1 x Dv ltac:(unfold n; lia)); apply rsum_ext; intros; ring).
  assert (Nul : forall a x, rsum n (fun m => a * dell n V m x) = 0) by (intros a x; rewrite <- (slope_affine n V a 0 x Dv ltac:(unfold n; lia)); apply rsum_ext; intros; ring).
  assert (Rad : forall x, rsum n (fun m => ann_r p m * dell n V m x) = 1).
  { intros x. rewrite <- (slope_affine n V (3 / 2) 1 x Dv ltac:(unfold n; lia)). apply Ext. intros m Hm. rewrite radius_vertex by exact Hp. reflexivity. }
  set (M := fun d q => match d, q with
    | O, O => - ann_r p j * A | O, S O => - cs i | O, _ => 0
    | S O, O => ann_r p j * B | S O, S O => sn i | S O, _ => 0
    | _, S (S O) => 1 | _, _ => 0 end).
  assert (HJ : jac_det F (V i) (V j) (V k) (det3 M)).
  { exists M. split; [|reflexivity]. intros d Hd.
    assert (G := grad_vertex n V (c d) i j k Dv ltac:(unfold n; lia) ltac:(unfold n; lia) ltac:(unfold n; lia)).
    apply (is_grad_ext (field3 n V (c d))); [intros; symmetry; apply HF|].
    match type of G with is_grad _ _ _ _ (?g1, ?g2, ?g3) => assert (E1 : g1 = M d 0%nat); [|assert (E2 : g2 = M d 1%nat); [|assert (E3 : g3 = M d 2%nat); [|rewrite E1, E2, E3 in G; exact G]]] end.
    - rewrite (Ext _ (fun m => ann_pos mpi p e m j k d * dell n V m (V i))) by (intros m Hm; rewrite Hc by assumption; reflexivity).
      assert (D3 : (d = 0 \/ d = 1 \/ d = 2)%nat) by lia. destruct D3 as [-> | [-> | ->]]; cbn [ann_pos M].
      + unfold A. rewrite <- rsum_scal_l. apply rsum_ext. intros m Hm. unfold cs. ring.
      + unfold B. rewrite <- rsum_scal_l. apply rsum_ext. intros m Hm. unfold sn. ring.
      + apply Nul.
    - rewrite (Ext _ (fun m => ann_pos mpi p e i m k d * dell n V m (V j))) by (intros m Hm; rewrite Hc by assumption; reflexivity).
      assert (D3 : (d = 0 \/ d = 1 \/ d = 2)%nat) by lia. destruct D3 as [-> | [-> | ->]]; cbn [ann_pos M].
      + rewrite <- (Rmult_1_r (- cs i)), <- (Rad (V j)), <- rsum_scal_l. apply rsum_ext. intros m Hm. unfold cs. ring.
      + rewrite <- (Rmult_1_r (sn i)), <- (Rad (V j)), <- rsum_scal_l. apply rsum_ext. intros m Hm. unfold sn. ring.
      + apply Nul.
    - rewrite (Ext _ (fun m => ann_pos mpi p e i j m d * dell n V m (V k))) by (intros m Hm; rewrite Hc by assumption; reflexivity).
      assert (D3 : (d = 0 \/ d = 1 \/ d = 2)%nat) by lia. destruct D3 as [-> | [-> | ->]]; cbn [ann_pos M].
      + apply Nul.
      + apply Nul.
      + apply One. }
  rewrite (jac_det_unique _ _ _ _ _ _ HD HJ). unfold det3, M.
  transitivity (ann_r p j * (cs i * B - sn i * A)); [ring|]. f_equal. unfold chord. fold n V. unfold A, B. rewrite <- !rsum_scal_l, <- rsum_minus.
  apply rsum_ext. intros m Hm. rewrite <- (angle_diff mpi p e i m Hp), sin_minus. unfold cs, sn. ring.
Qed.

(** the true half annulus *)
Lemma ann_map_det mpi p e i j k : (1 <= p)%nat -> jac_det (ann_map mpi e) (vertex1 p i) (vertex1 p j) (vertex1 p k) (ann_r p j * (mpi / 4)).
Proof.
  intros Hp. set (th := (INR e + (vertex1 p i + 1) / 2) * (mpi / 2)).
  exists (fun d q => match d, q with
    | O, O => (3 / 2 + vertex1 p j) * (sin th * (mpi / 4)) | O, S O => - cos th | O, _ => 0
    | S O, O => (3 / 2 + vertex1 p j) * (cos th * (mpi / 4)) | S O, S O => sin th | S O, _ => 0
    | _, S (S O) => 1 | _, _ => 0 end). split.
  - assert (Dth : derivable_pt_lim (fun x => (INR e + (x + 1) / 2) * (mpi / 2)) (vertex1 p i) (mpi / 4)) by (der_tac; field).
    assert (Dc : derivable_pt_lim (fun x => cos ((INR e + (x + 1) / 2) * (mpi / 2))) (vertex1 p i) (- sin th * (mpi / 4))) by exact (derivable_pt_lim_comp _ cos _ _ _ Dth (derivable_pt_lim_cos _)).
    assert (Ds : derivable_pt_lim (fun x => sin ((INR e + (x + 1) / 2) * (mpi / 2))) (vertex1 p i) (cos th * (mpi / 4))) by exact (derivable_pt_lim_comp _ sin _ _ _ Dth (derivable_pt_lim_sin _)).
    intros d Hd. assert (D3 : (d = 0 \/ d = 1 \/ d = 2)%nat) by lia. destruct D3 as [-> | [-> | ->]]; (split; [|split]); cbn [ann_map]; cbv beta iota.
    + eapply der_value; [|apply der_scal, Dc]. ring.
    + change (cos ((INR e + (vertex1 p i + 1) / 2) * (mpi / 2))) with (cos th). change (sin ((INR e + (vertex1 p i + 1) / 2) * (mpi / 2))) with (sin th). der_tac. ring.
    + apply der_const.
    + eapply der_value; [|apply der_scal, Ds]. ring.
    + change (cos ((INR e + (vertex1 p i + 1) / 2) * (mpi / 2))) with (cos th). change (sin ((INR e + (vertex1 p i + 1) / 2) * (mpi / 2))) with (sin th). der_tac. ring.
    + apply der_const.
    + apply der_const.
    + apply der_const.
    + apply der_id.
  - unfold det3. rewrite radius_vertex by exact Hp. assert (S2 := sin2_cos2 th). unfold Rsqr in S2.
    transitivity ((3 / 2 + vertex1 p j) * (mpi / 4) * (sin th * sin th + cos th * cos th)); [rewrite S2; ring|ring].
Qed.

(** * accuracy *)
Lemma fact_prod n : rprod n (fun m => INR n - INR m) = INR (fact n).
Proof.
  assert (Sl : forall k f, rprod (S k) f = f 0%nat * rprod k (fun i => f (S i))).
  { induction k as [|k IH]; intros f; [cbn; ring|]. cbn [rprod] in *. rewrite IH. ring. }
  induction n as [|n IH]; [reflexivity|]. rewrite Sl, fact_simpl, mult_INR, <- IH. replace (INR 0) with 0 by reflexivity. rewrite Rminus_0_r. f_equal.
  apply rprod_ext. intros m Hm. rewrite !S_INR. ring.
Qed.
Lemma rprod_scal n a f i : (i < S n)%nat -> rprod (S n) (fun j => if Nat.eqb j i then 1 else a * f j) = a ^ n * rprod (S n) (fun j => if Nat.eqb j i then 1 else f j).
Proof.
  revert i. induction n as [|n IH]; intros i Hi.
  - replace i with 0%nat by lia. cbn. ring.
  - destruct (Nat.eq_dec i (S n)) as [->|].
    + change (rprod (S (S n)) ?f) with (rprod (S n) f * f (S n)). cbv beta. rewrite Nat.eqb_refl.
      assert (A : forall b (g : nat -> R), rprod (S n) (fun j => if Nat.eqb j (S n) then 1 else b * g j) = b ^ S n * rprod (S n) g).
      { intros b g. rewrite (rprod_ext _ _ (fun j => b * g j)) by (intros j Hj; destruct (Nat.eqb_spec j (S n)); [lia|reflexivity]).
        generalize (S n). induction n0 as [|q IHq]; [cbn; ring|]. cbn [rprod pow]. rewrite IHq. ring. }
      rewrite A. rewrite (rprod_ext (S n) (fun j => if Nat.eqb j (S n) then 1 else f j) f) by (intros j Hj; destruct (Nat.eqb_spec j (S n)); [lia|reflexivity]). ring.
    + change (rprod (S (S n)) ?f) with (rprod (S n) f * f (S n)). cbv beta. rewrite IH by lia. destruct (Nat.eqb_spec (S n) i); [lia|]. cbn [pow]. ring.
Qed.
Lemma rprod_abs n f : Rabs (rprod n f) = rprod n (fun j => Rabs (f j)).
Proof. induction n as [|n IH]; [cbn; apply Rabs_R1|]. cbn [rprod]. rewrite Rabs_mult, IH. reflexivity. Qed.
Lemma rprod_nonneg n f : (forall i, (i < n)%nat -> 0 <= f i) -> 0 <= rprod n f.
Proof. induction n as [|n IH]; cbn [rprod]; intros H; [lra|]. apply Rmult_le_pos; [apply IH; intros; apply H; lia|apply H; lia]. Qed.
Lemma gaps_le p : forall i, (i <= p)%nat -> 0 <= rprod (S p) (fun m => if Nat.eqb m i then 1 else Rabs (INR i - INR m)) <= INR (fact p).
Proof.
  induction p as [|p IH]; intros i Hi.
  - replace i with 0%nat by lia. cbn. lra.
  - split; [apply rprod_nonneg; intros m Hm; destruct (Nat.eqb m i); [lra|apply Rabs_pos]|].
    change (rprod (S (S p)) ?f) with (rprod (S p) f * f (S p)). cbv beta. destruct (Nat.eqb_spec (S p) i) as [<-|Ne].
    + rewrite Rmult_1_r, <- fact_prod. apply Req_le. apply rprod_ext. intros m Hm. destruct (Nat.eqb_spec m (S p)); [lia|]. apply Rabs_pos_eq. assert (INR m <= INR (S p)) by (apply le_INR; lia). lra.
    + destruct (IH i ltac:(lia)) as (A & B). rewrite fact_simpl, mult_INR, Rmult_comm. apply Rmult_le_compat; [apply Rabs_pos|exact A| |exact B].
      assert (0 <= INR i) by apply pos_INR. assert (INR i <= INR (S p)) by (apply le_INR; lia). rewrite Rabs_left1; lra.
Qed.

Definition sine_derivs (a x0 : R) (k : nat) (t : R) : R := a ^ k * sin (a * (t - x0) + INR k * (PI / 2)).
Lemma sine_derivs_ok n a x0 : derivs n (sine_derivs a x0).
Proof.
  intros k t _. unfold sine_derivs.
  assert (Da : derivable_pt_lim (fun t => a * (t - x0) + INR k * (PI / 2)) t a) by (der_tac; ring).
  eapply der_value; [|apply der_scal, (derivable_pt_lim_comp _ sin _ _ _ Da (derivable_pt_lim_sin _))]. rewrite S_INR.
  replace (a * (t - x0) + (INR k + 1) * (PI / 2)) with (PI / 2 + (a * (t - x0) + INR k * (PI / 2))) by field.
  rewrite <- cos_sin. cbn [pow]. ring.
Qed.

Theorem chord_accuracy mpi p i : 0 <= mpi -> (1 <= p)%nat -> (i <= p)%nat -> Rabs (chord mpi p i - mpi / 4) <= mpi / 4 * (mpi / (2 * INR p)) ^ p / INR (p + 1).
Proof.
  intros Hm Hp Hi. set (V := vertex1 p). set (a := mpi / 4). assert (Pp : 0 < INR p) by (apply lt_0_INR; lia).
  assert (E1 : (p + 1 = S p)%nat) by lia.
  destruct (interp_slope_error p V (sine_derivs a (V i)) i) as (z & Ez); [rewrite <- E1; apply vertex1_increasing, Hp|apply sine_derivs_ok|lia|].
  assert (L : sine_derivs a (V i) 1 (V i) = a).
  { unfold sine_derivs. replace (a * (V i - V i) + INR 1 * (PI / 2)) with (PI / 2) by (cbn [INR]; ring). rewrite sin_PI2. ring. }
  assert (C : rsum (S p) (fun m => sine_derivs a (V i) 0 (V m) * dell (S p) V m (V i)) = chord mpi p i).
  { unfold chord. rewrite E1. apply rsum_ext. intros m Hm'. f_equal. unfold sine_derivs. rewrite angle_vertex by exact Hp. fold V a. cbn [pow INR]. rewrite Rmult_1_l. f_equal. ring. }
  rewrite L, C in Ez. rewrite Rabs_minus_sym. fold a. rewrite Ez. clear Ez L C.
  unfold Rdiv at 1. rewrite !Rabs_mult.
  assert (Pf : 0 < INR (fact (S p))) by apply INR_fact_lt_0. rewrite (Rabs_pos_eq (/ _)) by (left; apply Rinv_0_lt_compat; exact Pf).
  assert (Ha : 0 <= a) by (unfold a; lra).
  assert (B1 : Rabs (sine_derivs a (V i) (S p) z) <= a ^ S p).
  { unfold sine_derivs. rewrite Rabs_mult, (Rabs_pos_eq (a ^ S p)) by (apply pow_le; exact Ha). rewrite <- (Rmult_1_r (a ^ S p)) at 2. apply Rmult_le_compat_l; [apply pow_le; exact Ha|].
    apply Rabs_le. apply SIN_bound. }
  assert (B2 : Rabs (rprod (S p) (fun j => if Nat.eqb j i then 1 else V i - V j)) <= (2 / INR p) ^ p * INR (fact p)).
  { rewrite rprod_abs. rewrite (rprod_ext _ _ (fun j => if Nat.eqb j i then 1 else 2 / INR p * Rabs (INR i - INR j))).
    - rewrite rprod_scal by lia. apply Rmult_le_compat_l; [apply pow_le; left; apply Rdiv_lt_0_compat; lra|apply gaps_le; exact Hi].
    - intros j Hj. destruct (Nat.eqb j i); [apply Rabs_R1|]. replace (V i - V j) with (2 / INR p * (INR i - INR j)) by (unfold V, vertex1; field; lra).
      rewrite Rabs_mult, (Rabs_pos_eq (2 / INR p)) by (left; apply Rdiv_lt_0_compat; lra). reflexivity. }
  apply Rle_trans with (a ^ S p * / INR (fact (S p)) * ((2 / INR p) ^ p * INR (fact p))).
  - apply Rmult_le_compat; [apply Rmult_le_pos; [apply Rabs_pos|left; apply Rinv_0_lt_compat; exact Pf]|apply Rabs_pos| |exact B2].
    apply Rmult_le_compat_r; [left; apply Rinv_0_lt_compat; exact Pf|exact B1].
  - apply Req_le. rewrite fact_simpl, mult_INR, E1. assert (INR (fact p) <> 0) by apply INR_fact_neq_0. assert (INR (S p) <> 0) by (apply not_0_INR; lia).
    replace (mpi / (2 * INR p)) with (a * (2 / INR p)) by (unfold a; field; lra). rewrite Rpow_mult_distr. cbn [pow]. field. split; assumption.
Qed.
Lemma chord_positive mpi p i : 0 < mpi <= PI -> (1 <= p)%nat -> (i <= p)%nat -> 0 < chord mpi p i.
Proof.
  intros Hm Hp Hi. assert (A := chord_accuracy mpi p i ltac:(lra) Hp Hi). assert (P4 := PI_4). assert (Pp : 1 <= INR p) by (replace 1 with (INR 1) by reflexivity; apply le_INR; lia).
  assert (P3 : PI < 4). { destruct (PI_ineq 1) as (_ & T). change (2 * 1)%nat with 2%nat in T. unfold sum_f_R0, tg_alt, PI_tg in T. cbn [Nat.mul Nat.add pow INR] in T. lra. }
  assert (Q : (mpi / (2 * INR p)) ^ p / INR (p + 1) < 1).
  { assert (B : 0 < mpi / (2 * INR p)) by (apply Rdiv_lt_0_compat; lra). rewrite plus_INR. replace (INR 1) with 1 by reflexivity.
    destruct (Nat.eq_dec p 1) as [->|].
    - cbn [INR pow]. lra.
    - assert (2 <= INR p) by (replace 2 with (INR 2) by (cbn; lra); apply le_INR; lia).
      assert (B1 : mpi / (2 * INR p) <= 1) by (apply Rmult_le_reg_r with (2 * INR p); [lra|]; unfold Rdiv; rewrite Rmult_assoc, Rinv_l by lra; lra).
      assert (B2 : (mpi / (2 * INR p)) ^ p <= 1) by (rewrite <- (pow1 p); apply pow_incr; lra).
      apply Rmult_lt_reg_r with (INR p + 1); [lra|]. unfold Rdiv at 1. rewrite Rmult_assoc, Rinv_l by lra. lra. }
  assert (A' : Rabs (chord mpi p i - mpi / 4) < mpi / 4).
  { eapply Rle_lt_trans; [exact A|]. unfold Rdiv at 1 in Q. unfold Rdiv at 1. rewrite Rmult_assoc. rewrite <- (Rmult_1_r (mpi / 4)) at 2. apply Rmult_lt_compat_l; lra. }
  apply Rabs_def2 in A'. lra.
Qed.

(** * both ends of an element have the same slope *)
Lemma poly_flip n f : poly_lt n f -> poly_lt n (fun x => - f (- x)).
Proof.
  intros (a & H). exists (fun k => - (a k * (-1) ^ k)). intros x. rewrite H, <- rsum_opp. apply rsum_ext. intros k Hk.
  replace (- x) with ((-1) * x) by ring. rewrite Rpow_mult_distr. ring.
Qed.
Lemma chord_ends mpi p : (1 <= p)%nat -> chord mpi p p = chord mpi p 0.
Proof.
  intros Hp. assert (Pp : INR p <> 0) by (apply not_0_INR; lia). set (n := (p + 1)%nat). set (V := vertex1 p). assert (Dv := vertex1_distinct p Hp). fold n V in Dv.
  set (c0 := fun m => sin ((INR m - INR 0) / INR p * (mpi / 2))). set (cp := fun m => sin ((INR m - INR p) / INR p * (mpi / 2))).
  assert (E : forall t, interp n V cp t = - interp n V c0 (- t)).
  { apply (poly_agree n _ _ V); [apply interp_poly|apply poly_flip, interp_poly|exact Dv|]. intros m Hm. rewrite interp_node by assumption.
    assert (Vm : - V m = V (p - m)%nat) by (unfold V, vertex1; rewrite minus_INR by (unfold n in Hm; lia); field; exact Pp).
    rewrite Vm, interp_node by (assumption || (unfold n in *; lia)). unfold cp, c0. rewrite minus_INR by (unfold n in Hm; lia). replace (INR 0) with 0 by reflexivity.
    rewrite <- sin_neg. f_equal. field. exact Pp. }
  symmetry. apply chord_unique. unfold chord_slope. fold n V cp.
  apply (der_ext (fun t => - interp n V c0 (- t))); [intros; symmetry; apply E|].
  assert (D0 := chord_ok mpi p 0). unfold chord_slope in D0. fold n V c0 in D0.
  assert (Ve : - V p = V 0%nat) by (unfold V, vertex1; cbn [INR]; field; exact Pp).
  assert (Dn : derivable_pt_lim (fun t => - t) (V p) (-1)) by (der_tac; ring). rewrite <- Ve in D0.
  eapply der_value; [|apply der_opp, (derivable_pt_lim_comp _ _ _ _ _ Dn D0)]. ring.
Qed.

(** * order 2 *)
Lemma chord_2 mpi : chord mpi 2 0 = 2 * sin (mpi / 4) - sin (mpi / 2) / 2 /\ chord mpi 2 1 = sin (mpi / 4) /\ chord mpi 2 2 = 2 * sin (mpi / 4) - sin (mpi / 2) / 2.
Proof.
  assert (V0 : vertex1 2 0 = -1) by (unfold vertex1; cbn; field). assert (V1 : vertex1 2 1 = 0) by (unfold vertex1; cbn; field). assert (V2 : vertex1 2 2 = 1) by (unfold vertex1; cbn; field).
  assert (S0 : chord mpi 2 0 = 2 * sin (mpi / 4) - sin (mpi / 2) / 2).
  { unfold chord. change (2 + 1)%nat with 3%nat. unfold dell. cbn [rsum rprod Nat.eqb]. rewrite V0, V1, V2. cbn [INR].
    replace ((0 - 0) / (1 + 1) * (mpi / 2)) with 0 by field. rewrite sin_0. replace ((1 - 0) / (1 + 1) * (mpi / 2)) with (mpi / 4) by field. replace ((1 + 1 - 0) / (1 + 1) * (mpi / 2)) with (mpi / 2) by field. field. }
  split; [exact S0|]. split.
  - unfold chord. change (2 + 1)%nat with 3%nat. unfold dell. cbn [rsum rprod Nat.eqb]. rewrite V0, V1, V2. cbn [INR].
    replace ((0 - 1) / (1 + 1) * (mpi / 2)) with (- (mpi / 4)) by field. replace ((1 - 1) / (1 + 1) * (mpi / 2)) with 0 by field. replace ((1 + 1 - 1) / (1 + 1) * (mpi / 2)) with (mpi / 4) by field.
    rewrite sin_0, sin_neg. field.
  - rewrite (chord_ends mpi 2) by lia. exact S0.
Qed.
