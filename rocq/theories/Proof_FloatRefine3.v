(** Refinement in rounded arithmetic: position errors, bin width and keys. *)
From Coq Require Import Reals List Arith ZArith Lra Lia.
Import ListNotations.
Require Import Verif.Base Verif.RBase Verif.RSum Verif.Spec_Lagrange Verif.Lagrange_Math Verif.Model_Geom Verif.Proof_Geom Verif.Proof_Tri Verif.Model_Refine Verif.Model_High Verif.Spec_Quad Verif.Spec_High
  Verif.Proof_Lob Verif.Proof_Blas Verif.Proof_High Verif.Proof_High2 Verif.Proof_High3 Verif.Model_Full Verif.Spec_Full Verif.Proof_Full
  Verif.Spec_Float Verif.Float_Base Verif.Model_FloatLagrange Verif.Model_FloatRefine Verif.Spec_FloatRefine Verif.Proof_FloatRefine Verif.Proof_FloatRefine2.
Local Open Scope R_scope.

Section P.
Context (u : R) (rnd : R -> R).
Hypothesis HD : double_like u rnd.
Let U1 := dl_u1 u rnd HD.
Let Hr := dl_r u rnd HD.
Let rw := rnd_w u U1 rnd Hr.

Lemma fin_choice (A : Type) (a0 : A) n (Q : nat -> A -> Prop) : (forall i, (i < n)%nat -> exists a, Q i a) -> exists f, forall i, (i < n)%nat -> Q i (f i).
Proof.
  induction n as [|n IH]; intros H; [exists (fun _ => a0); intros; lia|].
  destruct IH as (f & Hf); [intros i Hi; apply H; lia|]. destruct (H n ltac:(lia)) as (a & Ha). exists (fun i => if Nat.eqb i n then a else f i).
  intros i Hi. destruct (Nat.eqb_spec i n) as [-> |]; [exact Ha|apply Hf; lia].
Qed.

(** * positions *)
Lemma basis_within q v : (forall d, (d < 3)%nat -> rnd (q d) = q d) -> (v < 8)%nat -> exists t, within u 6 t /\ tri_basisf rnd q v = tri_basis q v * t.
Proof.
  intros Hq Hv.
  assert (S : forall d, (d < 3)%nat -> rnd (q d * ref_vert v d) = q d * ref_vert v d).
  { intros d Hd. assert (V : ref_vert v d = 1 \/ ref_vert v d = -1) by (do 8 (destruct v as [|v]; [destruct d as [|[|[|d]]]; [| | |lia]; unfold ref_vert; cbn [nth]; auto|]); lia).
    destruct V as [-> | ->]; [rewrite Rmult_1_r; apply Hq, Hd|]. replace (q d * -1) with (- q d) by ring. rewrite (dl_opp u rnd HD), Hq by exact Hd. reflexivity. }
  unfold tri_basisf. cbv zeta. rewrite !S by lia. rewrite (eighth u rnd HD).
  destruct (rw (1 + q 0%nat * ref_vert v 0)) as (t0 & W0 & ->). destruct (rw (1 + q 1%nat * ref_vert v 1)) as (t1 & W1 & ->). destruct (rw (1 + q 2%nat * ref_vert v 2)) as (t2 & W2 & ->).
  match goal with |- context [rnd (1 / 8 * ?a)] => destruct (rw (1 / 8 * a)) as (t3 & W3 & ->) end.
  match goal with |- context [rnd (1 / 8 * ?a * ?b * ?c)] => destruct (rw (1 / 8 * a * b * c)) as (t4 & W4 & ->) end.
  match goal with |- context [rnd ?a] => destruct (rw a) as (t5 & W5 & ->) end.
  exists (t0 * t1 * t2 * t3 * t4 * t5). split; [|unfold tri_basis; ring].
  apply (within_mul u U1 5 1); [|assumption]. apply (within_mul u U1 4 1); [|assumption]. apply (within_mul u U1 3 1); [|assumption]. apply (within_mul u U1 2 1); [|assumption]. apply (within_mul u U1 1 1); assumption.
Qed.
(** the loop s += b k x k *)
Lemma sum_loop (b x : nat -> R) : forall m, exists ph, (forall k, (k < m)%nat -> within u (m + 1) (ph k)) /\
  fold_up m (fun k s => rnd (s + rnd (b k * x k))) 0 = rsum m (fun k => b k * x k * ph k).
Proof.
  induction m as [|m (ph & P & E)]; cbn [fold_up]; [exists (fun _ => 1); split; [lia|reflexivity]|].
  rewrite E. destruct (rw (b m * x m)) as (e & We & ->). match goal with |- context [rnd ?a] => destruct (rw a) as (d & Wd & ->) end.
  exists (fun k => if Nat.eqb k m then e * d else ph k * d). split.
  - intros k Hk. destruct (Nat.eqb_spec k m) as [-> |].
    + apply (within_le u U1 2); [lia|]. apply (within_mul u U1 1 1); assumption.
    + replace (S m + 1)%nat with (m + 1 + 1)%nat by lia. apply (within_mul u U1); [apply P; lia|exact Wd].
  - cbn [rsum]. rewrite Nat.eqb_refl. rewrite Rmult_plus_distr_r. f_equal; [|ring]. rewrite <- rsum_scal_r. apply rsum_ext. intros k Hk. destruct (Nat.eqb_spec k m); [lia|ring].
Qed.
Lemma mapf_within init q : (forall d, (d < 3)%nat -> rnd (q d) = q d) -> exists ph, (forall v, (v < 8)%nat -> within u 15 (ph v)) /\
  tri_mapf rnd init q = rsum 8 (fun v => tri_basis q v * init v * ph v).
Proof.
  intros Hq. destruct (sum_loop (tri_basisf rnd q) init 8) as (ph & P & E). unfold tri_mapf. rewrite E.
  assert (C : exists f, forall v, (v < 8)%nat -> within u 6 (f v) /\ tri_basisf rnd q v = tri_basis q v * f v).
  { assert (B : forall v, (v < 8)%nat -> exists t, within u 6 t /\ tri_basisf rnd q v = tri_basis q v * t) by (intros v Hv; apply basis_within; assumption).
    apply (fin_choice R 0 8 (fun v t => within u 6 t /\ tri_basisf rnd q v = tri_basis q v * t) B). }
  destruct C as (f & Hf). exists (fun v => f v * ph v). split.
  - intros v Hv. apply (within_mul u U1 6 9); [apply Hf, Hv|exact (P v Hv)].
  - apply rsum_ext. intros v Hv. destruct (Hf v Hv) as (_ & ->). ring.
Qed.
Lemma mapf_err init q M : (forall d, (d < 3)%nat -> rnd (q d) = q d /\ -1 <= q d <= 1) -> (forall v, (v < 8)%nat -> Rabs (init v) <= M) -> INR 15 * u < 1 ->
  Rabs (tri_mapf rnd init q - tri_map init q) <= gamma u 15 * M.
Proof.
  intros Hq HM H15. destruct (mapf_within init q (fun d Hd => proj1 (Hq d Hd))) as (ph & P & ->). rewrite tri_map_sum.
  eapply Rle_trans; [apply (sum_gamma u U1 15 8 _ ph H15 P)|]. apply Rmult_le_compat_l; [apply gamma_nonneg; assumption|].
  replace M with (rsum 8 (fun v => tri_basis q v * M)) by (rewrite rsum_scal_r, tri_basis_sum; ring).
  apply rsum_le. intros v Hv. assert (B := tri_basis_nonneg q v (fun d Hd => proj2 (Hq d Hd))). rewrite Rabs_mult, (Rabs_right (tri_basis q v)) by lra. apply Rmult_le_compat_l; [exact B|apply HM, Hv].
Qed.

(** moving the reference point *)
Definition lin (a b t : R) : R := ((1 - t) * a + (1 + t) * b) / 2.
Lemma lin_between a b t lo hi : -1 <= t <= 1 -> lo <= a <= hi -> lo <= b <= hi -> lo <= lin a b t <= hi.
Proof. intros Ht Ha Hb. unfold lin. split; nra. Qed.
Lemma lin_move a b t a' b' t' e L D : -1 <= t <= 1 -> Rabs (a - a') <= e -> Rabs (b - b') <= e -> Rabs (a' - b') <= L -> Rabs (t - t') <= D -> 0 <= D ->
  Rabs (lin a b t - lin a' b' t') <= e + D * L / 2.
Proof.
  intros Ht Ha Hb Hl Hd HD0. replace (lin a b t - lin a' b' t') with (((1 - t) * (a - a') + (1 + t) * (b - b')) / 2 + (t - t') * (b' - a') / 2) by (unfold lin; field).
  eapply Rle_trans; [apply Rabs_triang|]. apply Rplus_le_compat.
  - apply abs_le in Ha. apply abs_le in Hb. apply Rabs_le. split; nra.
  - unfold Rdiv. rewrite !Rabs_mult, (Rabs_right (/ 2)) by lra. apply Rmult_le_compat_r; [lra|]. apply Rmult_le_compat; try apply Rabs_pos; [exact Hd|]. rewrite Rabs_minus_sym. exact Hl.
Qed.
Lemma tri_lin init q : tri_map init q = lin (lin (lin (init 0%nat) (init 1%nat) (q 0%nat)) (lin (init 2%nat) (init 3%nat) (q 0%nat)) (q 1%nat)) (lin (lin (init 4%nat) (init 5%nat) (q 0%nat)) (lin (init 6%nat) (init 7%nat) (q 0%nat)) (q 1%nat)) (q 2%nat).
Proof. unfold tri_map, tri_basis, ref_vert, lin. cbn [fold_up nth]. field. Qed.
Lemma tri_move init q q' D lo hi : (forall d, (d < 3)%nat -> -1 <= q d <= 1 /\ -1 <= q' d <= 1 /\ Rabs (q d - q' d) <= D) -> 0 <= D ->
  (forall v, (v < 8)%nat -> lo <= init v <= hi) -> Rabs (tri_map init q - tri_map init q') <= 3 * (D * (hi - lo) / 2).
Proof.
  intros Hq HD0 Hi. rewrite !tri_lin. destruct (Hq 0%nat ltac:(lia)) as (A0 & B0 & C0). destruct (Hq 1%nat ltac:(lia)) as (A1 & B1 & C1). destruct (Hq 2%nat ltac:(lia)) as (A2 & B2 & C2).
  assert (Sp : forall a b, lo <= a <= hi -> lo <= b <= hi -> Rabs (a - b) <= hi - lo) by (intros a b ? ?; apply Rabs_le; lra).
  assert (Z : forall a, Rabs (a - a) <= 0) by (intros a; rewrite Rminus_eq_0, Rabs_R0; lra).
  assert (K := fun v H => Hi v H). assert (K0 := Hi 0%nat ltac:(lia)). assert (K1 := Hi 1%nat ltac:(lia)). assert (K2 := Hi 2%nat ltac:(lia)). assert (K3 := Hi 3%nat ltac:(lia)).
  assert (K4 := Hi 4%nat ltac:(lia)). assert (K5 := Hi 5%nat ltac:(lia)). assert (K6 := Hi 6%nat ltac:(lia)). assert (K7 := Hi 7%nat ltac:(lia)). clear K Hi.
  replace (3 * (D * (hi - lo) / 2)) with (0 + D * (hi - lo) / 2 + D * (hi - lo) / 2 + D * (hi - lo) / 2) by field.
  apply lin_move; try assumption.
  1, 2: apply lin_move; try assumption; [apply lin_move; try assumption; auto|apply lin_move; try assumption; auto|apply Sp; apply lin_between; assumption].
  apply Sp; apply lin_between; try assumption; apply lin_between; assumption.
Qed.

Lemma tri_pos_map p N X g d : tri_pos p N X g d = tri_map (fun v => X (N (g / pts1 p ^ 3)%nat v) d) (fun i => lob (pts1 p) (grid (pts1 p) g i)).
Proof. unfold tri_pos. cbv zeta. rewrite tri_geo. reflexivity. Qed.
Lemma grid_lt n g i : (0 < n)%nat -> (grid n g i < n)%nat.
Proof. intros H. unfold grid. apply Nat.mod_upper_bound. lia. Qed.

(** the error of a computed point: M bounds the coordinates of the corners of its element, lo and hi enclose them *)
Theorem pos_err p N X g d M lo hi : (p <= 9)%nat -> INR 15 * u < 1 ->
  (forall v, (v < 8)%nat -> Rabs (X (N (g / pts1 p ^ 3)%nat v) d) <= M /\ lo <= X (N (g / pts1 p ^ 3)%nat v) d <= hi) ->
  Rabs (tri_posf rnd p N X g d - tri_pos p N X g d) <= gamma u 15 * M + 3 / 2 * gamma u 3 * (hi - lo).
Proof.
  intros Hp H15 HX. assert (R := pts1_range p Hp). assert (H3 : INR 3 * u < 1) by (cbn [INR] in *; assert (Q := dl_u u rnd HD); lra).
  set (q' := fun i => lob (pts1 p) (grid (pts1 p) g i)). set (q := fun i => lobf rnd (pts1 p) (grid (pts1 p) g i)). set (init := fun v => X (N (g / pts1 p ^ 3)%nat v) d).
  rewrite tri_pos_map. fold init q'. unfold tri_posf. cbv zeta. fold init q.
  replace (tri_mapf rnd init q - tri_map init q') with ((tri_mapf rnd init q - tri_map init q) + (tri_map init q - tri_map init q')) by ring.
  eapply Rle_trans; [apply Rabs_triang|]. apply Rplus_le_compat.
  - apply mapf_err; [|intros v Hv; apply HX, Hv|exact H15]. intros i Hi. split; [apply (lobf_idem u rnd HD p _ Hp)|apply (lobf_range u rnd HD p _ Hp)]. apply grid_lt. lia.
  - eapply Rle_trans; [apply (tri_move init q q' (gamma u 3) lo hi)|apply Req_le; field].
    + intros i Hi. split; [apply (lobf_range u rnd HD p _ Hp), grid_lt; lia|]. split; [apply lob_range; [lia|apply grid_lt; lia]|]. apply (lobf_err u rnd HD p _ Hp); [apply grid_lt; lia|exact H3].
    + apply gamma_nonneg; [exact U1|exact H3].
    + intros v Hv. apply HX, Hv.
Qed.

(** * distances *)
Lemma within_sqrt m t : within u m t -> within u m (sqrt t).
Proof.
  intros W. assert (P := within_pos u U1 m t W). destruct W as (W1 & W2). assert (Q := pw_pos u U1 m). assert (L := pw_le1 u U1 m). assert (G := pw_ge1 u U1 m). split.
  - set (a := (1 - u) ^ m) in *. rewrite <- (sqrt_square a) by lra. apply sqrt_le_1_alt. nra.
  - set (a := / (1 - u) ^ m) in *. rewrite <- (sqrt_square a) by lra. apply sqrt_le_1_alt. nra.
Qed.
Lemma sum_within m a b s t : 0 <= a -> 0 <= b -> within u m s -> within u m t -> exists w, within u m w /\ a * s + b * t = (a + b) * w.
Proof.
  intros Ha Hb (S1 & S2) (T1 & T2). destruct (Req_EM_T (a + b) 0) as [E|E].
  - exists 1. split; [apply within_1, U1|]. assert (a = 0) by lra. assert (b = 0) by lra. subst. ring.
  - assert (P : 0 < a + b) by lra. exists ((a * s + b * t) / (a + b)). split; [|field; lra]. split.
    + apply Rmult_le_reg_r with (a + b); [exact P|]. unfold Rdiv. rewrite Rmult_assoc, Rinv_l, Rmult_1_r by lra. nra.
    + apply Rmult_le_reg_r with (a + b); [exact P|]. unfold Rdiv. rewrite Rmult_assoc, Rinv_l, Rmult_1_r by lra. nra.
Qed.
Lemma node_distf_within v a b : exists t, within u 6 t /\ node_distf rnd v a b = node_dist v a b * t.
Proof.
  unfold node_distf, node_dist. cbv zeta.
  assert (Sq : forall x, exists t, within u 3 t /\ rnd (rnd x * rnd x) = x ^ 2 * t).
  { intros x. destruct (rw x) as (t & W & ->). destruct (rw (x * t * (x * t))) as (s & W' & ->). exists (t * t * s). split; [|ring]. apply (within_mul u U1 2 1); [apply (within_mul u U1 1 1)|]; assumption. }
  destruct (Sq (v b 0%nat - v a 0%nat)) as (t0 & W0 & ->). destruct (Sq (v b 1%nat - v a 1%nat)) as (t1 & W1 & ->). destruct (Sq (v b 2%nat - v a 2%nat)) as (t2 & W2 & ->).
  set (x := (v b 0%nat - v a 0%nat) ^ 2). set (y := (v b 1%nat - v a 1%nat) ^ 2). set (z := (v b 2%nat - v a 2%nat) ^ 2).
  assert (Px : 0 <= x) by apply pow2_ge_0. assert (Py : 0 <= y) by apply pow2_ge_0. assert (Pz : 0 <= z) by apply pow2_ge_0.
  destruct (sum_within 3 x y t0 t1 Px Py W0 W1) as (s1 & V1 & ->). destruct (rw ((x + y) * s1)) as (r1 & R1 & ->).
  destruct (sum_within 4 (x + y) z (s1 * r1) t2 ltac:(lra) Pz ltac:(apply (within_mul u U1 3 1); assumption) ltac:(apply (within_le u U1 3); [lia|assumption])) as (s2 & V2 & E).
  replace ((x + y) * s1 * r1 + z * t2) with ((x + y) * (s1 * r1) + z * t2) by ring. rewrite E. destruct (rw ((x + y + z) * s2)) as (r2 & R2 & ->).
  assert (V3 : within u 5 (s2 * r2)) by (apply (within_mul u U1 4 1); assumption). assert (P3 := within_pos u U1 _ _ V3).
  rewrite Rmult_assoc, sqrt_mult by lra. destruct (rw (sqrt (x + y + z) * sqrt (s2 * r2))) as (r3 & R3 & ->).
  assert (V4 := within_sqrt _ _ V3). assert (P4 := within_pos u U1 _ _ V4). assert (P5 := within_pos u U1 _ _ R3). exists (sqrt (s2 * r2) * r3). split; [apply (within_mul u U1 5 1); assumption|].
  rewrite Rmult_assoc, Rabs_mult. f_equal. apply Rabs_right. apply Rle_ge, Rmult_le_pos; lra.
Qed.
Lemma min_within m a b s t : 0 <= a -> 0 <= b -> within u m s -> within u m t -> exists w, within u m w /\ Rmin (a * s) (b * t) = Rmin a b * w.
Proof.
  intros Ha Hb Ws Wt. assert (Ps := within_pos u U1 _ _ Ws). assert (Pt := within_pos u U1 _ _ Wt). destruct Ws as (S1 & S2). destruct Wt as (T1 & T2).
  destruct (Req_EM_T a 0) as [-> |Na]; [exists 1; split; [apply within_1, U1|]; rewrite Rmult_0_l, !Rmin_left by (try apply Rmult_le_pos; lra); ring|].
  destruct (Req_EM_T b 0) as [-> |Nb]; [exists 1; split; [apply within_1, U1|]; rewrite Rmult_0_l, !Rmin_right by (try apply Rmult_le_pos; lra); ring|].
  assert (PW := pw_pos u U1 m). set (lo := (1 - u) ^ m) in *. set (hi := / lo) in *. assert (Ph : 0 < hi) by (apply Rinv_0_lt_compat; exact PW).
  assert (Q : lo * Rmin a b <= Rmin (a * s) (b * t) <= hi * Rmin a b).
  { assert (m1 := Rmin_l a b). assert (m2 := Rmin_r a b). assert (m0 : 0 < Rmin a b) by (apply Rmin_glb_lt; lra). split.
    - apply Rmin_glb; [apply Rle_trans with (lo * a)|apply Rle_trans with (lo * b)]; nra.
    - destruct (Rle_dec a b) as [L|L]; [rewrite (Rmin_left a b) by exact L; eapply Rle_trans; [apply Rmin_l|]; nra|rewrite (Rmin_right a b) by lra; eapply Rle_trans; [apply Rmin_r|]; nra]. }
  assert (m0 : 0 < Rmin a b) by (apply Rmin_glb_lt; lra). exists (Rmin (a * s) (b * t) / Rmin a b). split; [|field; lra]. split.
  - apply Rmult_le_reg_r with (Rmin a b); [exact m0|]. unfold Rdiv. rewrite Rmult_assoc, Rinv_l, Rmult_1_r by lra. apply Q.
  - apply Rmult_le_reg_r with (Rmin a b); [exact m0|]. unfold Rdiv. rewrite Rmult_assoc, Rinv_l, Rmult_1_r by lra. apply Q.
Qed.
Lemma node_dist_nonneg v a b : 0 <= node_dist v a b.
Proof. apply Rabs_pos. Qed.
Lemma cell_dist_within v start t0 : 0 <= start -> within u 6 t0 -> exists t, within u 6 t /\ cell_dist_minf rnd (start * t0) v = cell_dist_min start v * t.
Proof.
  unfold cell_dist_minf, cell_dist_min. generalize pairs28 as l. intros l. revert start t0. induction l as [|a l IH]; intros start t0 Hs W; cbn [fold_left]; [exists t0; auto|].
  destruct (node_distf_within v (fst a) (snd a)) as (t & Wt & ->). destruct (min_within 6 _ _ t t0 (node_dist_nonneg v (fst a) (snd a)) Hs Wt W) as (w & Ww & ->).
  apply IH; [apply Rmin_glb; [apply node_dist_nonneg|exact Hs]|exact Ww].
Qed.
Lemma cell_dist_ext start v v' : (forall l d, (l < 8)%nat -> (d < 3)%nat -> v l d = v' l d) -> cell_dist_min start v = cell_dist_min start v'.
Proof.
  intros H. unfold cell_dist_min. assert (B : forall p, In p pairs28 -> (fst p < 8 /\ snd p < 8)%nat).
  { intros p Hp. destruct p as (a, b). apply pairs_sound in Hp. cbn [fst snd]. lia. }
  revert start B. generalize pairs28 as l. induction l as [|a l IH]; intros start B; cbn [fold_left]; [reflexivity|].
  destruct (B a (or_introl eq_refl)) as (B1 & B2). unfold node_dist at 2 4. rewrite !H by (assumption || lia). apply IH. intros p Hp. apply B. right. exact Hp.
Qed.
Lemma last_distf_ok m N X ne d : cdescribes m N X -> cm_cells m = S ne -> corner_spacing N X ne d -> d <= 10 ^ 64 ->
  exists t, within u 6 t /\ last_distf rnd m = Ok (d * t).
Proof.
  intros HM Ec HL Hd.
  assert (G : exists v, (forall l d, (l < 8)%nat -> (d < 3)%nat -> v l d = X (N ne l) d) /\ last_distf rnd m = Ok (cell_dist_minf rnd (rnd (10 ^ 64)) v)).
  { unfold last_distf. rewrite Ec.
    destruct (loop_inv (fun k (d : option R) => (0 < k)%nat -> exists v, (forall l d, (l < 8)%nat -> (d < 3)%nat -> v l d = X (N (k - 1)%nat l) d) /\ d = Some (cell_dist_minf rnd (rnd (10 ^ 64)) v)) (S ne)
      (fun c _ => do v <- cell_verts m c; Ok (Some (cell_dist_minf rnd (rnd (10 ^ 64)) v))) None) as (o & E & H).
    - lia.
    - intros c o Hc _. destruct (cell_verts_ok m N X c HM ltac:(lia)) as (v & -> & Hv). cbn [bind]. eexists. split; [reflexivity|]. intros _. exists v. split; [|reflexivity]. replace (S c - 1)%nat with c by lia. exact Hv.
    - rewrite E. cbn [bind]. destruct (H ltac:(lia)) as (v & Hv & ->). exists v. replace (S ne - 1)%nat with ne in Hv by lia. auto. }
  destruct G as (v & Hv & ->). destruct (rw (10 ^ 64)) as (t0 & W0 & ->).
  assert (P64 : 0 <= 10 ^ 64) by (apply pow_le; lra).
  destruct (cell_dist_within v (10 ^ 64) t0 P64 (within_le u U1 1 6 t0 ltac:(lia) W0)) as (t & W & ->). exists t. split; [exact W|]. do 2 f_equal.
  assert (L : least_dist v (cell_dist_min (10 ^ 64) v)).
  { apply cell_dist_min_spec. destruct HL as (_ & (a & b & Ha & Hb & Ne & E)). exists a, b. repeat (split; [assumption|]). rewrite node_dist_eq, !Hv by (assumption || lia). rewrite <- E. exact Hd. }
  apply (least_dist_ext _ _ _ Hv) in L. exact (least_dist_unique (fun l d => X (N ne l) d) _ _ L HL).
Qed.

(** * keys *)
Definition scaled (h : R) (mn c : nat -> R) (d : nat) : R := rnd (rnd (rnd (c d - mn d) + rnd (/ 10 ^ 14)) / h).
Definition scaledb (h : R) (mn mx : nat -> R) (d : nat) : R := rnd (rnd (rnd (rnd (mx d - mn d) + 1) + rnd (/ 10 ^ 14)) / h).
Definition ibin (x : R) : Z := trunc (Rmax (rnd (/ 10 ^ 16)) x).
Definition key3 (i0 i1 i2 b0 b1 : Z) : Z := (i0 + i1 * b0 + i2 * b0 * b1)%Z.
Definition keyf (h : R) (mn mx c : nat -> R) : Z :=
  key3 (ibin (scaled h mn c 0)) (ibin (scaled h mn c 1)) (ibin (scaled h mn c 2)) (ibin (scaledb h mn mx 0)) (ibin (scaledb h mn mx 1)).
Lemma small_pos : 0 < rnd (/ 10 ^ 16).
Proof. apply (rnd_pos u U1 rnd Hr). apply inv_pow_pos. Qed.
Lemma ibin_nonneg x : (0 <= ibin x)%Z.
Proof. apply trunc_nonneg. assert (H := small_pos). assert (M := Rmax_l (rnd (/ 10 ^ 16)) x). lra. Qed.
Lemma keyf_nonneg h mn mx c : (0 <= keyf h mn mx c)%Z.
Proof. unfold keyf, key3. assert (H := ibin_nonneg). apply Z.add_nonneg_nonneg; [apply Z.add_nonneg_nonneg; [apply H|apply Z.mul_nonneg_nonneg; apply H]|apply Z.mul_nonneg_nonneg; [apply Z.mul_nonneg_nonneg; apply H|apply H]]. Qed.
Lemma rdivf_ok a b : b <> 0 -> rdivf rnd a b = Ok (rnd (a / b)).
Proof. intros H. unfold rdivf. destruct (Req_EM_T b 0); [contradiction|reflexivity]. Qed.
Lemma binsf_ok h mx mn : h <> 0 -> exists b, binsf rnd h mx mn = Ok b /\ forall d, (d < 3)%nat -> b d = ibin (scaledb h mn mx d).
Proof.
  intros Hh. unfold binsf, loop. cbn [loop_from bind]. rewrite !rdivf_ok by exact Hh. cbn [bind]. eexists. split; [reflexivity|].
  intros d Hd. destruct d as [|[|[|d]]]; [| | |lia]; reflexivity.
Qed.
Lemma point_keyf_ok h mx mn b pts g c : h <> 0 -> (forall d, (d < 3)%nat -> b d = ibin (scaledb h mn mx d)) -> (forall d, (d < 3)%nat -> getu pts (g * 3 + d) = Ok (c d)) ->
  point_keyf rnd h mn b pts g = Ok (Z.to_nat (keyf h mn mx c)).
Proof.
  intros Hh Hb Hc. unfold point_keyf, loop. cbn [loop_from bind]. rewrite !Hc by lia. cbn [bind]. rewrite !rdivf_ok by exact Hh. cbn [bind].
  match goal with |- context [Z.ltb ?k 0] => replace k with (keyf h mn mx c) by (unfold keyf, key3; rewrite !Hb by lia; reflexivity) end.
  assert (P := keyf_nonneg h mn mx c). destruct (Z.ltb_spec (keyf h mn mx c) 0)%Z as [Q|Q]; [lia|reflexivity].
Qed.
Lemma refine_keysf_ok p m N X pts (pos : nat -> nat -> R) d ne : let ng := (pts1 p ^ 3)%nat in
  cdescribes m N X -> cm_cells m = S ne -> corner_spacing N X ne d -> 0 < d <= 10 ^ 64 ->
  (forall g i, (g < S ne * ng)%nat -> (i < 3)%nat -> getu pts (g * 3 + i) = Ok (pos g i)) ->
  exists ks mx mn t, refine_keysf rnd p m pts = Ok ks /\ length ks = (S ne * ng)%nat /\
    mesh_box (rnd (10 ^ 16)) m = Ok (mx, mn) /\ within u 8 t /\
    forall g, (g < S ne * ng)%nat -> nth g ks 0%nat = Z.to_nat (keyf (node_bin p d * t) mn mx (pos g)).
Proof.
  intros ng HM Ec HL Hd HP. unfold refine_keysf.
  destruct (mesh_box_ok (rnd (10 ^ 16)) m N X HM) as (mx & mn & -> & _). cbn [bind].
  destruct (last_distf_ok m N X ne d HM Ec HL (proj2 Hd)) as (t0 & W0 & ->). cbn [bind]. rewrite sub_max, pts1_model, Ec.
  assert (M1 := max1_pos p). destruct (rw (7 * INR (Nat.max 1 p))) as (t1 & W1 & ->). assert (P0 := within_pos u U1 _ _ W0). assert (P1 := within_pos u U1 _ _ W1).
  assert (Q : 0 < 7 * INR (Nat.max 1 p) * t1) by (apply Rmult_lt_0_compat; lra). rewrite rdivf_ok by lra. cbn [bind].
  destruct (rw (d * t0 / (7 * INR (Nat.max 1 p) * t1))) as (t2 & W2 & E2). assert (P2 := within_pos u U1 _ _ W2). rewrite E2. clear E2.
  replace (d * t0 / (7 * INR (Nat.max 1 p) * t1) * t2) with (node_bin p d * (t0 * / t1 * t2)) by (unfold node_bin; field; lra).
  set (t := t0 * / t1 * t2). assert (W : within u 8 t) by (apply (within_mul u U1 7 1); [apply (within_mul u U1 6 1); [|apply within_inv; [exact U1|]]|]; assumption).
  assert (P := within_pos u U1 _ _ W). assert (Hh : 0 < node_bin p d * t) by (apply Rmult_lt_0_compat; [unfold node_bin; apply Rdiv_lt_0_compat; lra|exact P]).
  destruct (binsf_ok (node_bin p d * t) mx mn ltac:(lra)) as (b & -> & Eb). cbn [bind]. fold ng. rewrite (Nat.mul_comm ng).
  destruct (loop_inv (fun n (ks : list nat) => length ks = n /\ forall g, (g < n)%nat -> nth g ks 0%nat = Z.to_nat (keyf (node_bin p d * t) mn mx (pos g)))
    (S ne * ng) (fun g ks => do k <- point_keyf rnd (node_bin p d * t) mn b pts g; Ok (ks ++ [k])) []) as (ks & E & L & H).
  - split; [reflexivity|intros; lia].
  - intros g ks Hg (L & H). cbn beta. rewrite (point_keyf_ok _ mx mn b pts g (pos g)) by (lra || exact Eb || (intros i Hi; apply HP; assumption)). cbn [bind].
    eexists. split; [reflexivity|]. rewrite app_length, L. split; [cbn; lia|]. intros g' Hg'.
    destruct (Nat.eq_dec g' g) as [-> |]; [rewrite app_nth2, L, Nat.sub_diag by lia; reflexivity|]. rewrite app_nth1 by lia. apply H. lia.
  - exists ks, mx, mn, t. auto.
Qed.
End P.
