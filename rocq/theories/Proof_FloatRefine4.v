(** Refinement in rounded arithmetic: when the numbering is that of exact arithmetic. *)
From Coq Require Import Reals List Arith ZArith Lra Lia FunctionalExtensionality.
Import ListNotations.
Require Import Verif.Base Verif.RBase Verif.RSum Verif.Spec_Lagrange Verif.Lagrange_Math Verif.Model_Quad Verif.Model_Geom Verif.Proof_Geom Verif.Proof_Tri Verif.Model_Refine Verif.Model_High Verif.Spec_Quad Verif.Spec_High
  Verif.Proof_Lob Verif.Proof_Quad3 Verif.Proof_Blas Verif.Proof_High Verif.Proof_High2 Verif.Proof_High3 Verif.Model_Full Verif.Spec_Full Verif.Proof_Full Verif.Prop_Full
  Verif.Spec_Float Verif.Float_Base Verif.Model_FloatLagrange Verif.Model_FloatRefine Verif.Spec_FloatRefine Verif.Proof_FloatRefine Verif.Proof_FloatRefine2 Verif.Proof_FloatRefine3.
Local Open Scope R_scope.

(** * exact arithmetic is the case without rounding *)
Definition idr (x : R) : R := x.
Lemma idr_eq x : idr x = x. Proof. reflexivity. Qed.
Lemma id_double_like : double_like 0 idr.
Proof.
  unfold double_like, idr, rounds. split; [lra|]. split; [intros x; exists 0; split; [rewrite Rabs_R0; lra|ring]|]. repeat split; intros; lra.
Qed.
Lemma floats_id num : lobatto_floats idr num = swage_lobatto_nodes_tab num.
Proof.
  assert (M : forall l : list R, map idr l = l) by (intros l; unfold idr; apply map_id).
  unfold lobatto_floats. cbv zeta.
  destruct num as [|q|q]; try apply M.
  destruct (Pos.eq_dec q 4) as [-> |N4]; [|destruct (Pos.eq_dec q 5) as [-> |N5]; [|destruct (Pos.eq_dec q 6) as [-> |N6]]].
  4: do 3 (destruct q as [q|q|]; try apply M; try congruence).
  - unfold idr. cbn [swage_lobatto_nodes_tab]. repeat f_equal; field.
  - unfold idr. cbn [swage_lobatto_nodes_tab]. repeat f_equal; field.
  - unfold idr. cbn [swage_lobatto_nodes_tab]. repeat f_equal; field.
Qed.
Lemma node_distf_id v a b : node_distf idr v a b = node_dist v a b.
Proof. unfold node_distf, node_dist, idr. cbv zeta. do 2 f_equal. ring. Qed.
Lemma cell_dist_id s v : cell_dist_minf idr s v = cell_dist_min s v.
Proof. unfold cell_dist_minf, cell_dist_min. f_equal. extensionality m. extensionality p. rewrite node_distf_id. reflexivity. Qed.
Lemma refine_cellsf_id p m : refine_cellsf idr p m = refine_cells p m.
Proof.
  rewrite refine_cellsf_tail, refine_cells_tail.
  assert (E1 : refine_pointsf idr p m = refine_points p m) by (unfold refine_pointsf, refine_points, lobatto_nodes_1D_tmp; cbv zeta; rewrite floats_id; reflexivity).
  rewrite E1. f_equal. extensionality pts. f_equal.
  unfold refine_keysf, refine_keys. rewrite (idr_eq (10 ^ 16)). destruct (mesh_box (10 ^ 16) m) as [(mx, mn)|e]; [|reflexivity]. cbn [bind].
  assert (E2 : last_distf idr m = last_dist (fun _ => 10 ^ 64) m).
  { unfold last_distf, last_dist. rewrite (idr_eq (10 ^ 64)). generalize (10 ^ 64). intros K.
    assert (EF : (fun v => cell_dist_minf idr K v) = (fun v => cell_dist_min K v)) by (extensionality v; apply cell_dist_id).
    change (fun (c : nat) (_ : option R) => do v <- cell_verts m c; Ok (Some (cell_dist_minf idr K v))) with (fun (c : nat) (_ : option R) => do v <- cell_verts m c; Ok (Some ((fun v => cell_dist_minf idr K v) v))). rewrite EF. reflexivity. }
  rewrite E2. destruct (last_dist _ m) as [d|e]; [|reflexivity]. cbn [bind]. rewrite sub_max. assert (Q := max1_pos p).
  unfold rdivf at 1. unfold idr at 1. destruct (Req_EM_T (7 * INR (Nat.max 1 p)) 0) as [F|_]; [lra|]. cbn [bind]. reflexivity.
Qed.

(** * boxes *)
Lemma box_is big m N X lo hi : cdescribes m N X -> is_box (cm_nodes m) X lo hi -> (forall n i, (n < cm_nodes m)%nat -> (i < 3)%nat -> Rabs (X n i) <= big) ->
  exists mx mn, mesh_box big m = Ok (mx, mn) /\ forall i, (i < 3)%nat -> mn i = lo i /\ mx i = hi i.
Proof.
  intros HM HB Hbig. destruct (mesh_box_ok big m N X HM) as (mx & mn & E & B & A1 & A2). exists mx, mn. split; [exact E|].
  intros i Hi. destruct (HB i Hi) as (K & (a & Ha & Ea) & (b & Hb & Eb)).
  assert (Ba := B a i Ha Hi). assert (Bb := B b i Hb Hi). assert (Ga := abs_le _ _ (Hbig a i Ha Hi)). assert (Gb := abs_le _ _ (Hbig b i Hb Hi)). split.
  - destruct (A1 i Hi) as [Q|(n & Hn & Q)]; [lra|]. assert (Kn := K n Hn). lra.
  - destruct (A2 i Hi) as [Q|(n & Hn & Q)]; [lra|]. assert (Kn := K n Hn). lra.
Qed.

(** * truncation *)
Lemma trunc_clear c c' t t' eta : 0 < c < 1 -> 0 < c' < 1 -> Rabs (t' - t) <= eta -> clear eta t -> trunc (Rmax c' t') = trunc (Rmax c t).
Proof.
  intros Hc Hc' H Cl. assert (E0 : 0 <= eta) by (assert (Q := Rabs_pos (t' - t)); lra). apply abs_le in H.
  destruct (Rlt_dec t 1) as [L|L].
  - assert (Q := Cl 1%Z ltac:(lia)). rewrite Rabs_left in Q by lra.
    assert (G : forall c x, 0 < c < 1 -> x < 1 -> trunc (Rmax c x) = 0%Z).
    { intros a x Ha Hx. assert (m1 := Rmax_l a x). assert (m2 : Rmax a x < 1) by (apply Rmax_lub_lt; lra). apply trunc_unique; simpl; lra. }
    rewrite !G by lra. reflexivity.
  - assert (B := trunc_bounds t ltac:(lra)). set (n := trunc t) in *.
    assert (Hn : (1 <= n)%Z) by (assert (0 < n)%Z by (apply lt_IZR; lra); lia).
    assert (Q := Cl n Hn). assert (Q1 := Cl (n + 1)%Z ltac:(lia)). rewrite plus_IZR in Q1. rewrite Rabs_right in Q by lra. rewrite Rabs_left in Q1 by lra.
    assert (N1 : 1 <= IZR n) by (apply IZR_le in Hn; exact Hn).
    assert (G : forall c x, 0 < c < 1 -> IZR n <= x < IZR n + 1 -> trunc (Rmax c x) = n) by (intros a x Ha Hx; rewrite Rmax_right by lra; apply trunc_unique; lra).
    rewrite !G by lra. reflexivity.
Qed.

Section P.
Context (u : R) (rnd : R -> R).
Hypothesis HD : double_like u rnd.
Let U1 := dl_u1 u rnd HD.
Let Hr := dl_r u rnd HD.
Let rw := rnd_w u U1 rnd Hr.

(** * scaled coordinates *)
Lemma scaled_err h t mn c x d E L : 0 < h -> within u 8 t -> INR 12 * u < 1 -> Rabs (c d - x) <= E -> Rabs (x - mn d) <= L ->
  Rabs (scaled rnd (h * t) mn c d - (x - mn d + / 10 ^ 14) / h) <= (E + gamma u 12 * (L + E + / 10 ^ 14)) / h.
Proof.
  intros Hh Wt H12 HE HL. unfold scaled. assert (Pt := within_pos u U1 _ _ Wt). assert (e14 := inv_pow_pos 14). set (e := / 10 ^ 14) in *.
  destruct (rw (c d - mn d)) as (t1 & W1 & ->). destruct (rw e) as (t2 & W2 & ->). destruct (rw ((c d - mn d) * t1 + e * t2)) as (t3 & W3 & ->).
  match goal with |- context [rnd ?a] => destruct (rw a) as (t4 & W4 & ->) end.
  assert (T1 : within u 12 (t1 * t3 * / t * t4)).
  { apply (within_le u U1 11); [lia|]. apply (within_mul u U1 10 1); [|assumption]. apply (within_mul u U1 2 8); [apply (within_mul u U1 1 1); assumption|apply within_inv; assumption]. }
  assert (T2 : within u 12 (t2 * t3 * / t * t4)).
  { apply (within_le u U1 11); [lia|]. apply (within_mul u U1 10 1); [|assumption]. apply (within_mul u U1 2 8); [apply (within_mul u U1 1 1); assumption|apply within_inv; assumption]. }
  set (a := t1 * t3 * / t * t4) in *. set (b := t2 * t3 * / t * t4) in *.
  replace (((c d - mn d) * t1 + e * t2) * t3 / (h * t) * t4 - (x - mn d + e) / h) with (((c d - x) + (c d - mn d) * (a - 1) + e * (b - 1)) / h) by (unfold a, b; field; lra).
  unfold Rdiv. rewrite Rabs_mult, (Rabs_right (/ h)) by (apply Rle_ge, Rlt_le, Rinv_0_lt_compat; exact Hh). apply Rmult_le_compat_r; [apply Rlt_le, Rinv_0_lt_compat; exact Hh|].
  assert (Ga := within_gamma u U1 12 a H12 T1). assert (Gb := within_gamma u U1 12 b H12 T2). set (G := gamma u 12) in *.
  assert (B : Rabs (c d - mn d) <= L + E) by (replace (c d - mn d) with ((x - mn d) + (c d - x)) by ring; eapply Rle_trans; [apply Rabs_triang|lra]).
  eapply Rle_trans; [apply Rabs_triang|]. eapply Rle_trans; [apply Rplus_le_compat_r, Rabs_triang|]. rewrite !Rabs_mult, (Rabs_right e) by lra.
  assert (A1 := Rabs_pos (a - 1)). assert (A2 := Rabs_pos (c d - mn d)).
  assert (Rabs (c d - mn d) * Rabs (a - 1) <= (L + E) * G) by (apply Rmult_le_compat; assumption). assert (e * Rabs (b - 1) <= e * G) by (apply Rmult_le_compat_l; lra). lra.
Qed.
Lemma scaledb_err h t mn mx d L : 0 < h -> within u 8 t -> INR 12 * u < 1 -> Rabs (mx d - mn d) <= L ->
  Rabs (scaledb rnd (h * t) mn mx d - (mx d - mn d + 1 + / 10 ^ 14) / h) <= gamma u 12 * (L + 1 + / 10 ^ 14) / h.
Proof.
  intros Hh Wt H12 HL. unfold scaledb. assert (Pt := within_pos u U1 _ _ Wt). assert (e14 := inv_pow_pos 14). set (e := / 10 ^ 14) in *.
  destruct (rw (mx d - mn d)) as (t1 & W1 & ->). destruct (rw ((mx d - mn d) * t1 + 1)) as (t2 & W2 & ->). destruct (rw e) as (t3 & W3 & ->).
  destruct (rw (((mx d - mn d) * t1 + 1) * t2 + e * t3)) as (t4 & W4 & ->).
  match goal with |- context [rnd ?a] => destruct (rw a) as (t5 & W5 & ->) end.
  assert (T0 : within u 10 (t4 * / t * t5)) by (apply (within_mul u U1 9 1); [|assumption]; apply (within_mul u U1 1 8); [assumption|apply within_inv; assumption]).
  assert (T1 : within u 12 (t1 * t2 * (t4 * / t * t5))) by (apply (within_mul u U1 2 10); [apply (within_mul u U1 1 1); assumption|exact T0]).
  assert (T2 : within u 12 (t2 * (t4 * / t * t5))) by (apply (within_le u U1 11); [lia|]; apply (within_mul u U1 1 10); assumption).
  assert (T3 : within u 12 (t3 * (t4 * / t * t5))) by (apply (within_le u U1 11); [lia|]; apply (within_mul u U1 1 10); assumption).
  set (a := t1 * t2 * (t4 * / t * t5)) in *. set (b := t2 * (t4 * / t * t5)) in *. set (c := t3 * (t4 * / t * t5)) in *.
  replace ((((mx d - mn d) * t1 + 1) * t2 + e * t3) * t4 / (h * t) * t5 - (mx d - mn d + 1 + e) / h) with (((mx d - mn d) * (a - 1) + (b - 1) + e * (c - 1)) / h) by (unfold a, b, c; field; lra).
  unfold Rdiv. rewrite Rabs_mult, (Rabs_right (/ h)) by (apply Rle_ge, Rlt_le, Rinv_0_lt_compat; exact Hh). apply Rmult_le_compat_r; [apply Rlt_le, Rinv_0_lt_compat; exact Hh|].
  assert (Ga := within_gamma u U1 12 a H12 T1). assert (Gb := within_gamma u U1 12 b H12 T2). assert (Gc := within_gamma u U1 12 c H12 T3). set (G := gamma u 12) in *.
  eapply Rle_trans; [apply Rabs_triang|]. eapply Rle_trans; [apply Rplus_le_compat_r, Rabs_triang|]. rewrite !Rabs_mult, (Rabs_right e) by lra.
  assert (A1 := Rabs_pos (a - 1)). assert (A2 := Rabs_pos (mx d - mn d)).
  assert (Rabs (mx d - mn d) * Rabs (a - 1) <= L * G) by (apply Rmult_le_compat; assumption). assert (e * Rabs (c - 1) <= e * G) by (apply Rmult_le_compat_l; lra). lra.
Qed.
Lemma small_lt1 : 0 < rnd (/ 10 ^ 16) < 1.
Proof.
  split; [apply (small_pos u rnd HD)|]. destruct (Hr (/ 10 ^ 16)) as (d & B & ->). assert (Q := dl_u u rnd HD). apply abs_le in B. assert (P := inv_pow_pos 16).
  assert (L : / 10 ^ 16 <= / 2) by (apply Rinv_le_contravar; [lra|]; apply Rle_trans with (10 ^ 1); [lra|]; apply Rle_pow; [lra|lia]). nra.
Qed.
End P.

Lemma refine_key_id h mn mx c : keyf idr h mn mx c = key3 (trunc (Rmax (/ 10 ^ 16) ((c 0%nat - mn 0%nat + / 10 ^ 14) / h))) (trunc (Rmax (/ 10 ^ 16) ((c 1%nat - mn 1%nat + / 10 ^ 14) / h))) (trunc (Rmax (/ 10 ^ 16) ((c 2%nat - mn 2%nat + / 10 ^ 14) / h)))
  (trunc (Rmax (/ 10 ^ 16) ((mx 0%nat - mn 0%nat + 1 + / 10 ^ 14) / h))) (trunc (Rmax (/ 10 ^ 16) ((mx 1%nat - mn 1%nat + 1 + / 10 ^ 14) / h))).
Proof. reflexivity. Qed.
Lemma within0 t m : within 0 m t -> t = 1.
Proof. unfold within. rewrite Rminus_0_r, pow1, Rinv_1. lra. Qed.
Lemma tri_posf_id p N X g d : tri_posf idr p N X g d = tri_pos p N X g d.
Proof.
  rewrite tri_pos_map. unfold tri_posf. cbv zeta. unfold lobf, lob. rewrite floats_id, Proof_Quad3.swage_same. reflexivity.
Qed.

Theorem same_numbering u rnd p m N X d ne lo hi M L : double_like u rnd -> let h := node_bin p d in let E := gamma u 15 * M + 3 / 2 * gamma u 3 * L in
  (p <= 9)%nat -> INR 15 * u < 1 -> cdescribes m N X -> cm_cells m = S ne -> corner_spacing N X ne d -> 0 < d <= 10 ^ 64 ->
  is_box (cm_nodes m) X lo hi -> (forall i, (i < 3)%nat -> hi i - lo i <= L) -> (forall n i, (n < cm_nodes m)%nat -> (i < 3)%nat -> Rabs (X n i) <= M) -> M <= 10 ^ 15 ->
  (forall g i, (g < S ne * pts1 p ^ 3)%nat -> (i < 3)%nat -> clear ((E + gamma u 12 * (L + E + / 10 ^ 14)) / h) ((tri_pos p N X g i - lo i + / 10 ^ 14) / h)) ->
  (forall i, (i < 2)%nat -> clear (gamma u 12 * (L + 1 + / 10 ^ 14) / h) ((hi i - lo i + 1 + / 10 ^ 14) / h)) ->
  exists r r', refine_cells p m = Ok r /\ refine_cellsf rnd p m = Ok r' /\ rf_merged r' = rf_merged r /\ rf_maps r' = rf_maps r /\
    cm_nodes (rf_mesh r') = cm_nodes (rf_mesh r) /\ cm_cells (rf_mesh r') = cm_cells (rf_mesh r) /\ cm_conn (rf_mesh r') = cm_conn (rf_mesh r) /\
    forall v i, (v < cm_nodes (rf_mesh r))%nat -> (i < 3)%nat -> exists c c', cm_coord (rf_mesh r) v i = Ok c /\ cm_coord (rf_mesh r') v i = Ok c' /\ Rabs (c' - c) <= E.
Proof.
  intros HDl h E Hp H15 HM Ec HL Hd HB HLh HMb M15 Clp Clb.
  assert (U1 := dl_u1 u rnd HDl). assert (Ub := dl_u u rnd HDl). assert (H12 : INR 12 * u < 1) by (cbn [INR] in *; lra).
  assert (M1 := max1_pos p). assert (Hh : 0 < h) by (unfold h, node_bin; apply Rdiv_lt_0_compat; lra).
  assert (P15 : 10 ^ 15 <= 10 ^ 16 / 2) by (change (10 ^ 16) with (10 * 10 ^ 15); assert (Z15 := pow_lt 10 15 ltac:(lra)); generalize dependent (10 ^ 15); intros; lra).
  assert (R16 : 10 ^ 15 <= rnd (10 ^ 16)).
  { destruct (dl_r u rnd HDl (10 ^ 16)) as (q & B & ->). apply abs_le in B. assert (0 < 10 ^ 16) by (apply pow_lt; lra). assert (10 ^ 16 / 2 <= 10 ^ 16 * (1 + q)) by nra. lra. }
  destruct (refine_pointsf_ok rnd p m N X Hp HM) as (pts' & Epts' & Gpts'). rewrite Ec in Gpts'.
  destruct (refine_pointsf_ok idr p m N X Hp HM) as (pts & Epts & Gpts). rewrite Ec in Gpts.
  destruct (refine_keysf_ok u rnd HDl p m N X pts' _ d ne HM Ec HL Hd Gpts') as (ks' & mx' & mn' & t & Eks' & Lks' & Ebox' & Wt & Hks').
  destruct (refine_keysf_ok 0 idr id_double_like p m N X pts _ d ne HM Ec HL Hd Gpts) as (ks & mx & mn & t0 & Eks & Lks & Ebox & Wt0 & Hks).
  apply within0 in Wt0. subst t0.
  destruct (box_is (rnd (10 ^ 16)) m N X lo hi HM HB) as (mx1 & mn1 & Eb1 & B1). { intros n i Hn Hi. assert (Q := HMb n i Hn Hi). lra. }
  destruct (box_is (idr (10 ^ 16)) m N X lo hi HM HB) as (mx2 & mn2 & Eb2 & B2). { intros n i Hn Hi. assert (Q := HMb n i Hn Hi). assert (0 < 10 ^ 16) by (apply pow_lt; lra). unfold idr. lra. }
  rewrite Eb1 in Ebox'. injection Ebox' as <- <-. rewrite Eb2 in Ebox. injection Ebox as <- <-.
  assert (Inr : forall g i, (g < S ne * pts1 p ^ 3)%nat -> (i < 3)%nat -> Rabs (tri_pos p N X g i - lo i) <= L).
  { intros g i Hg Hi. destruct (tri_in_range p m N X g Hp HM ltac:(rewrite Ec; exact Hg) i Hi) as (a & b & Ha & Hb & Q).
    destruct (HB i Hi) as (K & _). assert (Ka := K a Ha). assert (Kb := K b Hb). assert (Q' := HLh i Hi). apply Rabs_le. lra. }
  assert (Err : forall g i, (g < S ne * pts1 p ^ 3)%nat -> (i < 3)%nat -> Rabs (tri_posf rnd p N X g i - tri_pos p N X g i) <= E).
  { intros g i Hg Hi. assert (He : (g / pts1 p ^ 3 < cm_cells m)%nat) by (rewrite Ec; apply Nat.div_lt_upper_bound; [|lia]; assert (R := pts1_range p Hp); apply Nat.pow_nonzero; lia).
    eapply Rle_trans; [apply (pos_err u rnd HDl p N X g i M (lo i) (hi i) Hp H15)|].
    - intros v Hv. destruct (proj1 HM _ v He Hv) as (_ & Hn). split; [apply HMb; assumption|]. apply (HB i Hi). exact Hn.
    - unfold E. apply Rplus_le_compat_l. apply Rmult_le_compat_l; [|apply HLh, Hi]. assert (G := gamma_nonneg u U1 3 ltac:(cbn [INR] in *; lra)). lra. }
  assert (EK : ks' = ks).
  { apply nth_ext with 0%nat 0%nat; [congruence|]. intros g Hg. rewrite Lks' in Hg. rewrite Hks', Hks by exact Hg. f_equal. fold h. rewrite Rmult_1_r, refine_key_id. unfold keyf.
    assert (S1 := small_lt1 u rnd HDl). assert (S2 := small_lt1 0 idr id_double_like). unfold idr in S2.
    assert (EI : forall i, (i < 3)%nat -> ibin rnd (scaled rnd (h * t) mn1 (tri_posf rnd p N X g) i) = trunc (Rmax (/ 10 ^ 16) ((tri_posf idr p N X g i - mn2 i + / 10 ^ 14) / h))).
    { intros i Hi. rewrite tri_posf_id. destruct (B1 i Hi) as (Q1 & _). destruct (B2 i Hi) as (Q2 & _). rewrite Q2. unfold ibin. eapply trunc_clear; [exact S2|exact S1| |apply Clp; assumption].
      rewrite <- Q1. apply (scaled_err u rnd HDl); [exact Hh|exact Wt|exact H12|apply Err; assumption|]. rewrite Q1. apply Inr; assumption. }
    assert (EB : forall i, (i < 2)%nat -> ibin rnd (scaledb rnd (h * t) mn1 mx1 i) = trunc (Rmax (/ 10 ^ 16) ((mx2 i - mn2 i + 1 + / 10 ^ 14) / h))).
    { intros i Hi. destruct (B1 i ltac:(lia)) as (Q1 & Q1'). destruct (B2 i ltac:(lia)) as (Q2 & Q2'). rewrite Q2, Q2'. unfold ibin. eapply trunc_clear; [exact S2|exact S1| |apply Clb; assumption].
      rewrite <- Q1, <- Q1'. apply (scaledb_err u rnd HDl); [exact Hh|exact Wt|exact H12|]. rewrite Q1, Q1'. apply Rabs_le.
      assert (Q := HLh i ltac:(lia)). destruct (HB i ltac:(lia)) as (K & (a & Ha & _) & _). assert (Ka := K a Ha). lra. }
    rewrite !EI, !EB by lia. reflexivity. }
  subst ks'.
  destruct (refine_tail_ok p ne pts ks _ Hp Gpts Lks) as (r & nd & own & Er & H1 & H2 & _ & _ & Hown & _).
  destruct (refine_tail_ok p ne pts' ks _ Hp Gpts' Lks) as (r' & nd' & own' & Er' & H1' & H2' & _ & _ & Hown' & _).
  assert (F : refine_cells p m = Ok r) by (rewrite <- refine_cellsf_id, refine_cellsf_tail, Epts; cbn [bind]; rewrite Eks; cbn [bind]; rewrite Ec; exact Er).
  assert (F' : refine_cellsf rnd p m = Ok r') by (rewrite refine_cellsf_tail, Epts'; cbn [bind]; rewrite Eks'; cbn [bind]; rewrite Ec; exact Er').
  exists r, r'. split; [exact F|]. split; [exact F'|].
  unfold refine_tail in Er, Er'. cbv zeta in Er, Er'.
  apply bind_ok in Er. destruct Er as (mg & Emg & Er). rewrite Emg in Er'. cbn [bind] in Er'.
  apply bind_ok in Er. destruct Er as (cs & Ecs & Er). apply bind_ok in Er'. destruct Er' as (cs' & Ecs' & Er').
  apply bind_ok in Er. destruct Er as (maps & Emaps & Er). rewrite Emaps in Er'. cbn [bind] in Er'.
  apply bind_ok in Er. destruct Er as (nic & Enic & Er). rewrite Enic in Er'. cbn [bind] in Er'.
  injection Er as <-. injection Er' as <-. cbn [rf_merged rf_maps rf_mesh cm_nodes cm_cells cm_conn rf_points] in *.
  split; [reflexivity|]. split; [reflexivity|]. split; [reflexivity|]. split; [reflexivity|]. split; [reflexivity|].
  intros v i Hv Hi.
  assert (G : exists g, gauss_of_node mg v = Ok g /\ (g < S ne * pts1 p ^ 3)%nat).
  { assert (Hk : ks <> []) by (intros ->; cbn in Lks; assert (R := pts1_range p Hp); assert (pts1 p ^ 3 <> 0)%nat by (apply Nat.pow_nonzero; lia); nia).
    destruct (Prop_Refine.merge_spec ks Hk) as (mg2 & Emg2 & _ & _ & _ & _ & M5). rewrite Emg in Emg2. injection Emg2 as <-. rewrite Lks in M5. destruct (M5 v Hv) as (g & Hg & Eg & _). eauto. }
  destruct G as (g & Eg & Hg).
  assert (HG : forall w, (w < mg_num mg)%nat -> exists g, (g < S ne * pts1 p ^ 3)%nat /\ gauss_of_node mg w = Ok g).
  { intros w Hw. assert (Hk : ks <> []) by (intros ->; cbn in Lks; assert (R := pts1_range p Hp); assert (pts1 p ^ 3 <> 0)%nat by (apply Nat.pow_nonzero; lia); nia).
    destruct (Prop_Refine.merge_spec ks Hk) as (mg2 & Emg2 & _ & _ & _ & _ & M5). rewrite Emg in Emg2. injection Emg2 as <-. rewrite Lks in M5. destruct (M5 w Hw) as (g' & Hg' & Eg' & _). eauto. }
  destruct (high_coords_ok pts mg _ _ HG Gpts) as (cs1 & Ec1 & Hc1). rewrite Ecs in Ec1. injection Ec1 as <-.
  destruct (high_coords_ok pts' mg _ _ HG Gpts') as (cs2 & Ec2 & Hc2). rewrite Ecs' in Ec2. injection Ec2 as <-.
  exists (tri_posf idr p N X g i), (tri_posf rnd p N X g i). split; [exact (Hc1 v g i Hv Eg Hi)|]. split; [exact (Hc2 v g i Hv Eg Hi)|]. rewrite tri_posf_id. apply Err; assumption.
Qed.
