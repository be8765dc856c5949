(** Rounding errors of the face keys; when they do not matter. *)
From Coq Require Import Reals List Arith ZArith Lra Lia Psatz Bool FunctionalExtensionality.
Import ListNotations.
Require Import Verif.Base Verif.RBase Verif.RSum Verif.Spec_Patch Verif.Model_Geom Verif.Proof_Geom Verif.Proof_Tri
  Verif.Model_High Verif.Model_Full Verif.Spec_Full Verif.Proof_Full Verif.Proof_Full2 Verif.Spec_Float Verif.Float_Base Verif.Model_FloatLagrange Verif.Model_FloatRefine Verif.Spec_FloatRefine
  Verif.Proof_FloatRefine Verif.Proof_FloatRefine3 Verif.Proof_FloatRefine4 Verif.Model_FloatPatch Verif.Spec_FloatPatch Verif.Proof_FloatPatch Verif.Proof_FloatPatch2 Verif.Model_Patch.
Open Scope R_scope.

(** no rounding *)
Lemma centref_id N X c s d : (s < 6)%nat -> centref idr N X c s d = face_centre N X c s d.
Proof. intros Hs. unfold centref, face_centre, side_mean, idr. cbn [fold_up]. do 6 (destruct s as [|s]; [cbn; lra|]). exfalso; lia. Qed.
Lemma rkeyf_id delta mn mx c : rkeyf idr delta mn mx c = real_key delta mn mx c.
Proof. reflexivity. Qed.
Lemma face_keysf_id m nodes : face_keysf idr m nodes = face_keys m nodes.
Proof.
  unfold face_keysf, face_keys. rewrite (idr_eq (10 ^ 64)). destruct (mesh_box (10 ^ 64) m) as [(mx, mn)|e]; [|reflexivity]. cbn [bind].
  assert (E2 : patch_last_distf idr m = last_dist (fun v => node_dist v 0 1) m).
  { unfold patch_last_distf, last_dist.
    assert (EF : (fun v => cell_dist_minf idr (node_distf idr v 0 1) v) = (fun v => cell_dist_min (node_dist v 0 1) v)) by (extensionality v; rewrite node_distf_id; apply cell_dist_id).
    change (fun (c : nat) (_ : option R) => do v <- cell_verts m c; Ok (Some (cell_dist_minf idr (node_distf idr v 0 1) v))) with (fun (c : nat) (_ : option R) => do v <- cell_verts m c; Ok (Some ((fun v => cell_dist_minf idr (node_distf idr v 0 1) v) v))). rewrite EF. reflexivity. }
  rewrite E2. destruct (last_dist _ m) as [d|e]; [|reflexivity]. cbn [bind].
  unfold rdivf at 1. unfold idr at 1. destruct (Req_EM_T 3 0) as [F|_]; [lra|]. cbn [bind]. reflexivity.
Qed.

Section P.
Context (u : R) (rnd : R -> R).
Hypothesis HD : double_like u rnd.
Let U1 := dl_u1 u rnd HD.
Let Hr := dl_r u rnd HD.
Let rw := rnd_w u U1 rnd Hr.

(** * centres *)
Lemma centref_sum N X c s d : (s < 6)%nat -> exists ph, (forall k, (k < 4)%nat -> within u 5 (ph k)) /\ centref rnd N X c s d = rsum 4 (fun k => X (N c (side_corner s k)) d / 4 * ph k).
Proof.
  intros Hs. unfold centref.
  assert (G : forall m, exists ph, (forall k, (k < m)%nat -> within u (m + 1) (ph k)) /\
     fold_up m (fun k a => rnd (a + rnd (X (N c (side_corner s k)) d / 4))) 0 = rsum m (fun k => X (N c (side_corner s k)) d / 4 * ph k)).
  { induction m as [|m (ph & P & E)]; cbn [fold_up]; [exists (fun _ => 1); split; [lia|reflexivity]|].
    rewrite E. destruct (rw (X (N c (side_corner s m)) d / 4)) as (t & W & ->). match goal with |- context [rnd ?a] => destruct (rw a) as (t' & W' & ->) end.
    exists (fun k => if Nat.eqb k m then t * t' else ph k * t'). split.
    - intros k Hk. destruct (Nat.eqb_spec k m) as [-> |Nk]; [apply (within_le u U1 2); [lia|]; apply (within_mul u U1 1 1); assumption|].
      replace (S m + 1)%nat with (m + 1 + 1)%nat by lia. apply (within_mul u U1); [apply P; lia|exact W'].
    - cbn [rsum]. rewrite Nat.eqb_refl. rewrite (rsum_ext m (fun k => X (N c (side_corner s k)) d / 4 * (if Nat.eqb k m then t * t' else ph k * t')) (fun k => X (N c (side_corner s k)) d / 4 * ph k * t')).
      + rewrite rsum_scal_r. ring.
      + intros k Hk. destruct (Nat.eqb_spec k m); [lia|]. ring. }
  apply (G 4%nat).
Qed.
Lemma centre_is N X c s d : (s < 6)%nat -> face_centre N X c s d = rsum 4 (fun k => X (N c (side_corner s k)) d / 4).
Proof. intros Hs. rewrite <- centref_id by exact Hs. unfold centref, idr. cbn [fold_up rsum]. lra. Qed.
Lemma centref_err N X c s d M : (s < 6)%nat -> INR 5 * u < 1 -> (forall l, (l < 8)%nat -> Rabs (X (N c l) d) <= M) ->
  Rabs (centref rnd N X c s d - face_centre N X c s d) <= centre_err u M.
Proof.
  intros Hs H5 HM. destruct (centref_sum N X c s d Hs) as (ph & P & ->). rewrite centre_is by exact Hs.
  eapply Rle_trans; [apply (sum_gamma u U1 5 4 (fun k => X (N c (side_corner s k)) d / 4) ph H5 P)|]. unfold centre_err. apply Rmult_le_compat_l; [apply gamma_nonneg; assumption|].
  cbn [rsum]. assert (Q : forall k, (k < 4)%nat -> Rabs (X (N c (side_corner s k)) d / 4) <= M / 4).
  { intros k Hk. unfold Rdiv. rewrite Rabs_mult, (Rabs_right (/ 4)) by lra. apply Rmult_le_compat_r; [lra|]. apply HM, side_corner_lt; assumption. }
  assert (Q0 := Q 0%nat ltac:(lia)). assert (Q1 := Q 1%nat ltac:(lia)). assert (Q2 := Q 2%nat ltac:(lia)). assert (Q3 := Q 3%nat ltac:(lia)). lra.
Qed.

(** * bin numbers *)
Lemma bin_quot delta t a c x E L : 0 < delta -> within u 7 t -> INR 12 * u < 1 -> Rabs (c - x) <= E -> Rabs (x - a) <= L ->
  Rabs (rnd (rnd (rnd (c - a) + rnd (/ 10 ^ 12)) / (delta * t)) - (x - a + / 10 ^ 12) / delta) <= (E + gamma u 12 * (L + E + / 10 ^ 12)) / delta.
Proof.
  intros Hh Wt H12 HE HL. assert (Pt := within_pos u U1 _ _ Wt). assert (e12 := inv_pow_pos 12). set (e := / 10 ^ 12) in *.
  destruct (rw (c - a)) as (t1 & W1 & ->). destruct (rw e) as (t2 & W2 & ->). destruct (rw ((c - a) * t1 + e * t2)) as (t3 & W3 & ->).
  match goal with |- context [rnd ?a] => destruct (rw a) as (t4 & W4 & ->) end.
  assert (T : forall w, within u 1 w -> within u 12 (w * t3 * / t * t4)).
  { intros w W. apply (within_le u U1 10); [lia|]. apply (within_mul u U1 9 1); [|assumption]. apply (within_mul u U1 2 7); [apply (within_mul u U1 1 1); assumption|apply within_inv; assumption]. }
  assert (T1 := T _ W1). assert (T2 := T _ W2). clear T.
  set (p := t1 * t3 * / t * t4) in *. set (q := t2 * t3 * / t * t4) in *.
  replace (((c - a) * t1 + e * t2) * t3 / (delta * t) * t4 - (x - a + e) / delta) with (((c - x) + (c - a) * (p - 1) + e * (q - 1)) / delta) by (unfold p, q; field; lra).
  unfold Rdiv. rewrite Rabs_mult, (Rabs_right (/ delta)) by (apply Rle_ge, Rlt_le, Rinv_0_lt_compat; exact Hh). apply Rmult_le_compat_r; [apply Rlt_le, Rinv_0_lt_compat; exact Hh|].
  assert (Ga := within_gamma u U1 12 p H12 T1). assert (Gb := within_gamma u U1 12 q H12 T2). set (G := gamma u 12) in *.
  assert (B : Rabs (c - a) <= L + E) by (replace (c - a) with ((x - a) + (c - x)) by ring; eapply Rle_trans; [apply Rabs_triang|lra]).
  eapply Rle_trans; [apply Rabs_triang|]. eapply Rle_trans; [apply Rplus_le_compat_r, Rabs_triang|]. rewrite !Rabs_mult, (Rabs_right e) by lra.
  assert (A1 := Rabs_pos (p - 1)). assert (A2 := Rabs_pos (c - a)).
  assert (Rabs (c - a) * Rabs (p - 1) <= (L + E) * G) by (apply Rmult_le_compat; assumption). assert (e * Rabs (q - 1) <= e * G) by (apply Rmult_le_compat_l; lra). lra.
Qed.
Lemma max_move a a' b b' x y : Rabs (a' - a) <= x -> Rabs (b' - b) <= y -> 0 <= x -> 0 <= y -> Rabs (Rmax a' b' - Rmax a b) <= x + y.
Proof.
  intros A B Hx Hy. apply abs_le in A. apply abs_le in B. apply Rabs_le. unfold Rmax. destruct (Rle_dec a' b'), (Rle_dec a b); lra.
Qed.

(** * the key from its five numbers *)
Lemma key_move a b c n m a' b' c' n' m' Q e : INR 3 * u < 1 -> 0 <= e -> 0 <= Q ->
  0 <= a <= Q -> 0 <= b <= Q -> 0 <= c <= Q -> 0 <= n <= Q -> 0 <= m <= Q ->
  0 <= a' -> 0 <= b' -> 0 <= c' -> 0 <= n' -> 0 <= m' ->
  Rabs (a' - a) <= e -> Rabs (b' - b) <= e -> Rabs (c' - c) <= e -> Rabs (n' - n) <= e -> Rabs (m' - m) <= e ->
  let W := Q + e in
  Rabs (rnd (rnd (a' + rnd (b' * n')) + rnd (rnd (c' * n') * m')) - (a + b * n + c * n * m)) <= gamma u 3 * (W + W ^ 2 + W ^ 3) + e * (1 + 2 * W + 3 * W ^ 2).
Proof.
  intros H3 He HQ Ha Hb Hc Hn Hm Pa Pb Pc Pn Pm Da Db Dc Dn Dm W.
  apply abs_le in Da. apply abs_le in Db. apply abs_le in Dc. apply abs_le in Dn. apply abs_le in Dm.
  assert (Ba : 0 <= a' <= W) by (unfold W; lra). assert (Bb : 0 <= b' <= W) by (unfold W; lra). assert (Bc : 0 <= c' <= W) by (unfold W; lra). assert (Bn : 0 <= n' <= W) by (unfold W; lra). assert (Bm : 0 <= m' <= W) by (unfold W; lra).
  assert (HW : 0 <= W) by lra. assert (QW : Q <= W) by (unfold W; lra).
  assert (P1 : 0 <= b' * n' <= W * W) by (split; [apply Rmult_le_pos; lra|apply Rmult_le_compat; lra]).
  assert (P2 : 0 <= c' * n' <= W * W) by (split; [apply Rmult_le_pos; lra|apply Rmult_le_compat; lra]).
  assert (P3 : 0 <= c' * n' * m' <= W * W * W) by (split; [apply Rmult_le_pos; lra|apply Rmult_le_compat; lra]).
  set (K := a' + b' * n' + c' * n' * m').
  assert (E1 : Rabs (rnd (rnd (a' + rnd (b' * n')) + rnd (rnd (c' * n') * m')) - K) <= gamma u 3 * (W + W ^ 2 + W ^ 3)).
  { destruct (rw (b' * n')) as (t1 & W1 & ->). destruct (rw (a' + b' * n' * t1)) as (t2 & W2 & ->). destruct (rw (c' * n')) as (t3 & W3 & ->). destruct (rw (c' * n' * t3 * m')) as (t4 & W4 & ->).
    match goal with |- context [rnd ?a] => destruct (rw a) as (t5 & W5 & ->) end.
    assert (T1 : within u 3 (t2 * t5)) by (apply (within_le u U1 2); [lia|]; apply (within_mul u U1 1 1); assumption).
    assert (T2 : within u 3 (t1 * (t2 * t5))) by (apply (within_mul u U1 1 2); [assumption|]; apply (within_mul u U1 1 1); assumption).
    assert (T3 : within u 3 (t3 * t4 * t5)) by (apply (within_mul u U1 2 1); [|assumption]; apply (within_mul u U1 1 1); assumption).
    assert (G1 := within_gamma u U1 3 _ H3 T1). assert (G2 := within_gamma u U1 3 _ H3 T2). assert (G3 := within_gamma u U1 3 _ H3 T3).
    assert (Gp := gamma_nonneg u U1 3 H3). set (G := gamma u 3) in *.
    replace (((a' + b' * n' * t1) * t2 + c' * n' * t3 * m' * t4) * t5 - K) with (a' * (t2 * t5 - 1) + b' * n' * (t1 * (t2 * t5) - 1) + c' * n' * m' * (t3 * t4 * t5 - 1)) by (unfold K; ring).
    eapply Rle_trans; [apply Rabs_triang|]. eapply Rle_trans; [apply Rplus_le_compat_r, Rabs_triang|]. rewrite !(Rabs_mult _ (_ - 1)).
    rewrite (Rabs_right a'), (Rabs_right (b' * n')), (Rabs_right (c' * n' * m')) by lra.
    assert (Z1 := Rabs_pos (t2 * t5 - 1)). assert (Z2 := Rabs_pos (t1 * (t2 * t5) - 1)). assert (Z3 := Rabs_pos (t3 * t4 * t5 - 1)).
    assert (a' * Rabs (t2 * t5 - 1) <= W * G) by (apply Rmult_le_compat; lra).
    assert (b' * n' * Rabs (t1 * (t2 * t5) - 1) <= W * W * G) by (apply Rmult_le_compat; lra).
    assert (c' * n' * m' * Rabs (t3 * t4 * t5 - 1) <= W * W * W * G) by (apply Rmult_le_compat; lra).
    replace (G * (W + W ^ 2 + W ^ 3)) with (W * G + W * W * G + W * W * W * G) by ring. lra. }
  assert (M2 : forall x x' y y' A B, 0 <= A -> 0 <= B -> Rabs (x' - x) <= A -> Rabs (y' - y) <= e -> Rabs x' <= B -> Rabs y <= W -> Rabs (x' * y' - x * y) <= A * W + B * e).
  { intros x x' y y' A B HA HB Dx Dy Bx By. replace (x' * y' - x * y) with ((x' - x) * y + x' * (y' - y)) by ring.
    eapply Rle_trans; [apply Rabs_triang|]. rewrite !Rabs_mult. apply Rplus_le_compat; apply Rmult_le_compat; try apply Rabs_pos; assumption. }
  assert (Ab : forall x y, - e <= x - y <= e -> Rabs (x - y) <= e) by (intros; apply Rabs_le; assumption).
  assert (E2 : Rabs (b' * n' - b * n) <= e * W + W * e) by (apply M2; try (apply Ab; lra); try lra; rewrite Rabs_right; lra).
  assert (E3 : Rabs (c' * n' - c * n) <= e * W + W * e) by (apply M2; try (apply Ab; lra); try lra; rewrite Rabs_right; lra).
  assert (N0 : 0 <= e * W + W * e) by (assert (0 <= e * W) by (apply Rmult_le_pos; lra); lra).
  assert (E4 : Rabs (c' * n' * m' - c * n * m) <= (e * W + W * e) * W + W * W * e).
  { apply M2; try (apply Ab; lra); try assumption; try (rewrite Rabs_right; lra). apply Rmult_le_pos; lra. }
  assert (E5 := Ab a' a Da).
  replace (rnd (rnd (a' + rnd (b' * n')) + rnd (rnd (c' * n') * m')) - (a + b * n + c * n * m)) with
    ((rnd (rnd (a' + rnd (b' * n')) + rnd (rnd (c' * n') * m')) - K) + ((a' - a) + ((b' * n' - b * n) + (c' * n' * m' - c * n * m)))) by (unfold K; ring).
  eapply Rle_trans; [apply Rabs_triang|]. apply Rplus_le_compat; [exact E1|].
  eapply Rle_trans; [apply Rabs_triang|]. eapply Rle_trans; [apply Rplus_le_compat_l, Rabs_triang|].
  replace (e * (1 + 2 * W + 3 * W ^ 2)) with (e + ((e * W + W * e) + ((e * W + W * e) * W + W * W * e))) by ring. lra.
Qed.

Lemma small_move : Rabs (rnd (/ 10 ^ 16) - / 10 ^ 16) <= u.
Proof.
  destruct (Hr (/ 10 ^ 16)) as (d & B & ->). assert (P := inv_pow_pos 16). assert (L : / 10 ^ 16 <= 1) by (rewrite <- Rinv_1; apply Rinv_le_contravar; [lra|]; apply pow_R1_Rle; lra).
  replace (/ 10 ^ 16 * (1 + d) - / 10 ^ 16) with (/ 10 ^ 16 * d) by ring. rewrite Rabs_mult, Rabs_right by lra. assert (Z := Rabs_pos d). set (v := / 10 ^ 16) in *. nra.
Qed.

Theorem rkeyf_err delta t lo hi c' c M L : 0 < delta -> within u 7 t -> INR 12 * u < 1 -> 0 <= M -> 0 <= L ->
  (forall i, (i < 3)%nat -> lo i <= c i <= hi i /\ hi i - lo i <= L /\ Rabs (c' i - c i) <= centre_err u M) ->
  Rabs (rkeyf rnd (delta * t) lo hi c' - real_key delta lo hi c) <= key_err u M L delta.
Proof.
  intros Hd Wt H12 HM0 HL0 HB. assert (Hu := dl_u u rnd HD). unfold rkeyf, real_key. cbv zeta. unfold key_err. cbv zeta.
  assert (H5 : INR 5 * u < 1) by (cbn [INR] in *; lra). assert (H3 : INR 3 * u < 1) by (cbn [INR] in *; lra).
  assert (G5 := gamma_nonneg u U1 5 H5). assert (G12 := gamma_nonneg u U1 12 H12). assert (Pt := within_pos u U1 _ _ Wt).
  assert (CE : 0 <= centre_err u M) by (unfold centre_err; apply Rmult_le_pos; assumption).
  assert (e12 := inv_pow_pos 12). assert (e16 := inv_pow_pos 16). assert (id := Rinv_0_lt_compat _ Hd).
  set (e := bin_err u M L delta). set (Q := (L + / 10 ^ 12) / delta + 1).
  assert (He : (centre_err u M + gamma u 12 * (L + centre_err u M + / 10 ^ 12)) / delta + u = e) by reflexivity.
  assert (S0 : 0 <= (centre_err u M + gamma u 12 * (L + centre_err u M + / 10 ^ 12)) / delta).
  { apply Rmult_le_pos; [|lra]. apply Rplus_le_le_0_compat; [exact CE|]. apply Rmult_le_pos; lra. }
  assert (He0 : 0 <= e) by lra.
  assert (Le : 0 <= (L + / 10 ^ 12) / delta) by (apply Rmult_le_pos; lra).
  assert (l16 : / 10 ^ 16 <= 1) by (rewrite <- Rinv_1; apply Rinv_le_contravar; [lra|]; apply pow_R1_Rle; lra).
  assert (Bq : forall x, 0 <= x <= L -> 0 <= (x + / 10 ^ 12) / delta <= (L + / 10 ^ 12) / delta).
  { intros x Hx. split; [apply Rmult_le_pos; lra|]. apply Rmult_le_compat_r; lra. }
  assert (Q1 : forall i, (i < 3)%nat -> 0 <= face_bin delta (lo i) (c i) <= Q).
  { intros i Hi. destruct (HB i Hi) as (A & B & _). unfold face_bin, Q. assert (Z := Bq (c i - lo i) ltac:(lra)). split; [apply max_nonneg; lra|]. apply Rmax_lub; lra. }
  assert (N1 : forall i, (i < 3)%nat -> 0 <= (hi i - lo i + / 10 ^ 12) / delta <= Q).
  { intros i Hi. destruct (HB i Hi) as (A & B & _). unfold Q. assert (Z := Bq (hi i - lo i) ltac:(lra)). lra. }
  assert (Q2 : forall i, (i < 3)%nat -> 0 <= Rmax (rnd (/ 10 ^ 16)) (rnd (rnd (rnd (c' i - lo i) + rnd (/ 10 ^ 12)) / (delta * t)))).
  { intros i Hi. apply max_nonneg. apply (rnd_nonneg u rnd HD). lra. }
  assert (Hdt : 0 < delta * t) by (apply Rmult_lt_0_compat; assumption).
  assert (N2 : forall i, (i < 3)%nat -> 0 <= rnd (rnd (rnd (hi i - lo i) + rnd (/ 10 ^ 12)) / (delta * t))).
  { intros i Hi. destruct (HB i Hi) as (A & B & _). apply (bins_nonneg u rnd HD); [exact Hdt|lra]. }
  assert (Q3 : forall i, (i < 3)%nat -> Rabs (Rmax (rnd (/ 10 ^ 16)) (rnd (rnd (rnd (c' i - lo i) + rnd (/ 10 ^ 12)) / (delta * t))) - face_bin delta (lo i) (c i)) <= e).
  { intros i Hi. destruct (HB i Hi) as (A & B & C). unfold face_bin.
    eapply Rle_trans; [apply (max_move _ _ _ _ u ((centre_err u M + gamma u 12 * (L + centre_err u M + / 10 ^ 12)) / delta)); [exact small_move| |lra|exact S0]|lra].
    apply bin_quot; try assumption. rewrite Rabs_right; lra. }
  assert (N3 : forall i, (i < 3)%nat -> Rabs (rnd (rnd (rnd (hi i - lo i) + rnd (/ 10 ^ 12)) / (delta * t)) - (hi i - lo i + / 10 ^ 12) / delta) <= e).
  { intros i Hi. destruct (HB i Hi) as (A & B & C). rewrite <- He. eapply Rle_trans; [apply (bin_quot delta t (lo i) (hi i) (hi i) (centre_err u M) L); try assumption|lra].
    - rewrite Rminus_eq_0, Rabs_R0. exact CE.
    - rewrite Rabs_right; lra. }
  apply (key_move _ _ _ _ _ _ _ _ _ _ Q e H3 He0); try (apply Q1; lia); try (apply N1; lia); try (apply Q2; lia); try (apply N2; lia); try (apply Q3; lia); try (apply N3; lia).
  unfold Q. lra.
Qed.

Lemma trunc_clear0 k k' eta : 0 <= k -> 0 <= k' -> Rabs (k' - k) <= eta -> clear eta k -> trunc k' = trunc k.
Proof.
  intros H0 H0' H Cl. apply abs_le in H. assert (B := trunc_bounds k H0). assert (B' := trunc_bounds k' H0'). set (n := trunc k) in *. set (n' := trunc k') in *.
  assert (n = n' \/ n < n' \/ n' < n)%Z as [-> |[L|L]] by lia; [reflexivity| |]; exfalso.
  - assert (P : (0 <= n)%Z) by (unfold n; apply trunc_nonneg; exact H0). assert (Q := Cl n' ltac:(lia)). assert (IZR n + 1 <= IZR n') by (rewrite <- plus_IZR; apply IZR_le; lia).
    rewrite Rabs_left in Q by lra. lra.
  - assert (P : (0 <= n')%Z) by (unfold n'; apply trunc_nonneg; exact H0'). assert (Q := Cl n ltac:(lia)). assert (IZR n' + 1 <= IZR n) by (rewrite <- plus_IZR; apply IZR_le; lia).
    rewrite Rabs_right in Q by lra. lra.
Qed.

Lemma real_key_nonneg delta lo hi c : 0 < delta -> (forall i, (i < 3)%nat -> lo i <= hi i) -> 0 <= real_key delta lo hi c.
Proof. intros Hd Hm. rewrite <- rkeyf_id. apply (rkeyf_nonneg 0 idr id_double_like); assumption. Qed.
Lemma centre_between N X c s d lo hi : (s < 6)%nat -> (forall l, (l < 8)%nat -> lo <= X (N c l) d <= hi) -> lo <= face_centre N X c s d <= hi.
Proof.
  intros Hs H. rewrite centre_is by exact Hs. cbn [rsum].
  assert (Q : forall k, (k < 4)%nat -> lo <= X (N c (side_corner s k)) d <= hi) by (intros k Hk; apply H, side_corner_lt; assumption).
  assert (Q0 := Q 0%nat ltac:(lia)). assert (Q1 := Q 1%nat ltac:(lia)). assert (Q2 := Q 2%nat ltac:(lia)). assert (Q3 := Q 3%nat ltac:(lia)). lra.
Qed.
Lemma box64 m N X lo hi M : cdescribes m N X -> is_box (cm_nodes m) X lo hi -> (forall n i, (n < cm_nodes m)%nat -> (i < 3)%nat -> Rabs (X n i) <= M) -> M <= 10 ^ 63 ->
  forall rnd, double_like u rnd \/ rnd = idr -> exists mx mn, mesh_box (rnd (10 ^ 64)) m = Ok (mx, mn) /\ forall i, (i < 3)%nat -> mn i = lo i /\ mx i = hi i.
Proof.
  intros HM HB HX M63 r Hrr. apply (box_is _ m N X lo hi HM HB). intros n i Hn Hi. eapply Rle_trans; [apply HX; assumption|]. apply Rle_trans with (10 ^ 63); [exact M63|].
  assert (P : 0 < 10 ^ 63) by (apply pow_lt; lra). assert (E : 10 ^ 64 = 10 * 10 ^ 63) by reflexivity. rewrite E. generalize dependent (10 ^ 63). intros v Hv _ Pv.
  destruct Hrr as [Hd | ->]; [|rewrite idr_eq; lra]. destruct (dl_r u r Hd (10 * v)) as (d & B & ->). assert (Z := dl_u u r Hd). apply abs_le in B. nra.
Qed.
End P.
