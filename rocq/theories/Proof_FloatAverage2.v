(** Rounding errors of the smoothing and of k cycles (C80). *)
From Coq Require Import Reals List Arith ZArith Lra Lia Bool.
Import ListNotations.
Require Import Verif.Base Verif.NatSum Verif.RBase Verif.RSum Verif.Spec_Patch Verif.Spec_Full Verif.Model_Conn Verif.Model_Refine Verif.Model_Full Verif.Model_Average
  Verif.Spec_Average Verif.Proof_Average Verif.Proof_Average2 Verif.Proof_Average3 Verif.Proof_Average5 Verif.Spec_Float Verif.Float_Base Verif.Model_FloatAverage Verif.Spec_FloatAverage Verif.Proof_FloatAverage Verif.Model_Patch.
Local Open Scope nat_scope.

Lemma rsum_abs n f : (Rabs (rsum n f) <= rsum n (fun i => Rabs (f i)))%R.
Proof. induction n as [|n IH]; cbn [rsum]; [rewrite Rabs_R0; lra|]. eapply Rle_trans; [apply Rabs_triang|]. lra. Qed.

Section Err.
Variables (u : R) (rnd : R -> R).
Hypothesis Hu : (0 <= u < 1)%R.
Hypothesis Hr : rounds u rnd.
Local Notation within := (within u).

Lemma sumf_within K g : exists t, (forall j, j < K -> within K (t j)) /\ sumf rnd K g = rsum K (fun j => g j * t j)%R.
Proof.
  induction K as [|K (t & Ht & E)]; [exists (fun _ => 1%R); split; [intros; lia|reflexivity]|].
  cbn [sumf]. destruct (rnd_w u Hu rnd Hr (sumf rnd K g + g K)) as (w & Hw & Ew).
  exists (fun j => if j <? K then (t j * w)%R else w). split.
  - intros j Hj. destruct (Nat.ltb_spec j K) as [Lt|Ge].
    + replace (S K) with (K + 1) by lia. apply (within_mul u Hu); [apply Ht; exact Lt|exact Hw].
    + apply (within_le u Hu 1); [lia|exact Hw].
  - rewrite Ew, E. cbn [rsum]. rewrite Nat.ltb_irrefl, Rmult_plus_distr_r, <- rsum_scal_r. f_equal. apply rsum_ext. intros j Hj. destruct (Nat.ltb_spec j K); [ring|lia].
Qed.
Lemma meanf_within K g : exists t, (forall j, j < K -> within (S K) (t j)) /\ meanf rnd K g = rsum K (fun j => g j / INR K * t j)%R.
Proof.
  unfold meanf. destruct (sumf_within K (fun j => rnd (g j / INR K)%R)) as (t & Ht & ->).
  assert (W : forall j, exists w, within 1 w /\ rnd (g j / INR K)%R = (g j / INR K * w)%R) by (intros j; apply (rnd_w u Hu rnd Hr)).
  assert (C : forall K', exists w, (forall j, j < K' -> within 1 (w j)) /\ forall j, j < K' -> rnd (g j / INR K)%R = (g j / INR K * w j)%R).
  { induction K' as [|K' (w & H1 & H2)]; [exists (fun _ => 0%R); split; intros; lia|]. destruct (W K') as (w' & H3 & H4).
    exists (fun j => if j =? K' then w' else w j). split; intros j Hj; destruct (Nat.eqb_spec j K') as [->|Ne]; try assumption; [apply H1|apply H2]; lia. }
  destruct (C K) as (w & Hw & Ew). exists (fun j => (w j * t j)%R). split.
  - intros j Hj. change (S K) with (1 + K). apply (within_mul u Hu); [apply Hw|apply Ht]; exact Hj.
  - apply rsum_ext. intros j Hj. rewrite Ew by exact Hj. ring.
Qed.

(** the error of a mean of computed means *)
Lemma mean_err m K g (h : nat -> R) (G : nat -> R) : (INR (m + S K) * u < 1)%R ->
  (forall j, j < K -> exists p q, 0 < p /\ (exists t, (forall l, l < p -> within m (t l)) /\ g j = rsum p (fun l => q l * t l)%R) /\ h j = rsum p q /\ G j = rsum p (fun l => Rabs (q l))) ->
  (Rabs (meanf rnd K g - rsum K (fun j => h j / INR K)) <= gamma u (m + S K) * rsum K (fun j => G j / INR K))%R.
Proof.
  intros Hm H. destruct (meanf_within K g) as (t & Ht & ->). rewrite <- rsum_minus, <- rsum_scal_l.
  eapply Rle_trans; [apply rsum_abs|]. apply rsum_le. intros j Hj. destruct (H j Hj) as (p & q & Hp & (s & Hs & ->) & -> & ->).
  assert (K0 : (0 < INR K)%R) by (apply lt_0_INR; lia). assert (K1 : (0 < / INR K)%R) by (apply Rinv_0_lt_compat; exact K0).
  replace (rsum p (fun l => q l * s l) / INR K * t j - rsum p q / INR K)%R with ((rsum p (fun l => q l * (s l * t j)) - rsum p q) * / INR K)%R.
  2: { rewrite (rsum_ext p (fun l => (q l * (s l * t j))%R) (fun l => (q l * s l * t j)%R)) by (intros; ring). rewrite rsum_scal_r. unfold Rdiv. ring. }
  rewrite Rabs_mult, (Rabs_pos_eq (/ INR K)) by lra. unfold Rdiv. rewrite <- Rmult_assoc. apply Rmult_le_compat_r; [lra|].
  apply (sum_gamma u Hu (m + S K) p q (fun l => (s l * t j)%R) Hm). intros l Hl. apply (within_mul u Hu); [apply Hs; exact Hl|apply Ht; exact Hj].
Qed.

Lemma gamma_add a b : (INR (a + b) * u < 1)%R -> (gamma u a + gamma u b + gamma u a * gamma u b <= gamma u (a + b))%R.
Proof.
  rewrite plus_INR. intros H. assert (A := pos_INR a). assert (B := pos_INR b). assert (0 <= INR a * u)%R by nra. assert (0 <= INR b * u)%R by nra.
  unfold gamma. rewrite plus_INR. set (x := (INR a * u)%R) in *. set (y := (INR b * u)%R) in *. replace ((INR a + INR b) * u)%R with (x + y)%R in * by (unfold x, y; ring).
  assert (E : (x / (1 - x) + y / (1 - y) + x / (1 - x) * (y / (1 - y)) = / ((1 - x) * (1 - y)) - 1)%R) by (field; lra).
  assert (E' : ((x + y) / (1 - (x + y)) = / (1 - (x + y)) - 1)%R) by (field; lra). rewrite E, E'.
  apply Rplus_le_compat_r. apply Rinv_le_contravar; nra.
Qed.
Lemma gamma_mono a b : a <= b -> (INR b * u < 1)%R -> (gamma u a <= gamma u b)%R.
Proof.
  intros L H. assert (A := pos_INR a). assert (E : (INR a <= INR b)%R) by (apply le_INR; exact L). assert (INR a * u <= INR b * u)%R by nra. unfold gamma.
  assert (0 <= INR a * u)%R by nra. apply Rmult_le_compat; [lra|apply Rlt_le, Rinv_0_lt_compat; lra|lra|]. apply Rinv_le_contravar; lra.
Qed.

Section Mesh.
  Variables (sv : solver) (N : nat -> nat -> nat) (X : nat -> nat -> R) (A : nat -> list nat) (M : nat).
  Hypothesis HM : mesh_sound sv N X.
  Hypothesis HA : lists_around sv A.
  Let nn := cm_nodes (sv_mesh sv).
  Let nc := cm_cells (sv_mesh sv).
  (** no node has more than M corners of cells *)
  Hypothesis Hcount : forall n, n < nn -> corner_count N nc n <= M.
  Hypothesis Hm : (INR (M + 10) * u < 1)%R.
  Lemma HN : forall c l, c < nc -> l < 8 -> N c l < nn.
  Proof. destruct HM as [(H & _) _]. intros c l Hc Hl. apply H; assumption. Qed.

  Lemma smoothed_list f n : n < nn -> smoothed N nc f n = rsum (length (A n)) (fun j => (cell_mean N f (nth j (A n) 0%nat) / INR (length (A n)))%R).
  Proof.
    intros Hn. destruct (A_facts sv N X A HM HA n Hn) as (B & T & Len). unfold smoothed, node_mean. fold nc in Len. rewrite <- Len. destruct (Nat.eqb_spec (length (A n)) 0) as [Z|NZ].
    - rewrite Z. reflexivity.
    - unfold Rdiv. rewrite rsum_scal_r. rewrite (sum_by_count nc (cell_mean N f) (A n) B). f_equal. apply rsum_ext. intros c Hc. rewrite T by exact Hc. reflexivity.
  Qed.

  Lemma smoothedf_err f n : n < nn -> (Rabs (smoothedf rnd N A f n - smoothed N nc f n) <= gamma u (M + 10) * smoothed N nc (fun m => Rabs (f m)) n)%R.
  Proof.
    intros Hn. destruct (A_facts sv N X A HM HA n Hn) as (B & T & Len). assert (HC := Hcount n Hn). fold nc in Len. rewrite <- Len in HC.
    assert (Q : (INR (9 + S (length (A n))) * u < 1)%R).
    { assert (INR (9 + S (length (A n))) <= INR (M + 10))%R by (apply le_INR; lia). nra. }
    unfold smoothedf, node_meanf. rewrite (smoothed_list f n Hn), (smoothed_list (fun m => Rabs (f m)) n Hn).
    eapply Rle_trans; [apply (mean_err 9 (length (A n)) (fun j => cell_meanf rnd N f (nth j (A n) 0)) (fun j => cell_mean N f (nth j (A n) 0)) (fun j => cell_mean N (fun m => Rabs (f m)) (nth j (A n) 0)) Q)|].
    - intros j Hj. exists 8, (fun l => (f (N (nth j (A n) 0%nat) l) / INR 8)%R). split; [lia|]. split; [|split].
      + unfold cell_meanf. apply (meanf_within 8).
      + unfold cell_mean, Rdiv. rewrite <- rsum_scal_r. replace (INR 8) with 8%R by (cbn; lra). reflexivity.
      + unfold cell_mean, Rdiv. rewrite <- rsum_scal_r. apply rsum_ext. intros l _. rewrite Rabs_mult. f_equal. replace (INR 8) with 8%R by (cbn; lra). symmetry. apply Rabs_pos_eq. lra.
    - apply Rmult_le_compat_r.
      + apply rsum_nonneg. intros j Hj. unfold Rdiv. apply Rmult_le_pos; [|apply Rlt_le, Rinv_0_lt_compat, lt_0_INR; lia].
        unfold cell_mean, Rdiv. apply Rmult_le_pos; [|lra]. apply rsum_nonneg. intros; apply Rabs_pos.
      + apply gamma_mono; [lia|exact Hm].
  Qed.
  Lemma smoothed_zero n : smoothed N nc (fun _ => 0%R) n = 0%R.
  Proof. unfold smoothed, node_mean. destruct (_ =? 0); [reflexivity|]. unfold Rdiv. rewrite rsum_zero; [ring|]. intros c _. rewrite cell_mean_const. ring. Qed.
  Lemma smoothed_scal a f n : smoothed N nc (fun m => (a * f m)%R) n = (a * smoothed N nc f n)%R.
  Proof.
    unfold smoothed, node_mean. destruct (_ =? 0); [ring|]. unfold Rdiv. rewrite <- Rmult_assoc, <- rsum_scal_l. f_equal. apply rsum_ext. intros c _.
    unfold cell_mean, Rdiv. rewrite rsum_scal_l. ring.
  Qed.
  Lemma smoothed_plus f g n : smoothed N nc (fun m => (f m + g m)%R) n = (smoothed N nc f n + smoothed N nc g n)%R.
  Proof.
    unfold smoothed, node_mean. destruct (_ =? 0); [ring|]. unfold Rdiv. rewrite <- Rmult_plus_distr_r, <- rsum_plus. f_equal. apply rsum_ext. intros c _.
    unfold cell_mean, Rdiv. rewrite rsum_plus. ring.
  Qed.
  Lemma smoothed_abs f F n : (forall m, m < nn -> (Rabs (f m) <= F m)%R) -> (Rabs (smoothed N nc f n) <= smoothed N nc F n)%R.
  Proof.
    intros H. apply Rabs_le. split.
    - replace (- smoothed N nc F n)%R with (smoothed N nc (fun m => (-1 * F m)%R) n) by (rewrite smoothed_scal; ring). apply (smoothed_le N nn nc HN). intros m Hm'. assert (Z := H m Hm'). assert (Z' := Rle_abs (- f m)). rewrite Rabs_Ropp in Z'. lra.
    - apply (smoothed_le N nn nc HN). intros m Hm'. assert (Z := H m Hm'). assert (Z' := Rle_abs (f m)). lra.
  Qed.
  (** with errors e in the field *)
  Lemma smoothedf_err2 f g e n : n < nn -> (forall m, m < nn -> (Rabs (f m - g m) <= e m)%R) ->
    (Rabs (smoothedf rnd N A f n - smoothed N nc g n) <= gamma u (M + 10) * smoothed N nc (fun m => Rabs (f m)) n + smoothed N nc e n)%R.
  Proof.
    intros Hn He. replace (smoothedf rnd N A f n - smoothed N nc g n)%R with ((smoothedf rnd N A f n - smoothed N nc f n) + (smoothed N nc f n - smoothed N nc g n))%R by ring.
    eapply Rle_trans; [apply Rabs_triang|]. apply Rplus_le_compat; [apply smoothedf_err; exact Hn|]. rewrite smoothed_minus. apply smoothed_abs. exact He.
  Qed.

  Section Cycles.
    Variables (EC EN : nat -> nat -> nat) (L : nat -> list nat) (Q : nat -> nat -> nat).
    Let b0 := hit (L 0) Q.
    Let b3 := hit (L 3) Q.
    Local Notation T := (T N nc b0 b3).
    Local Notation Tf := (Tf rnd N L Q A).
    Local Notation it := (it N nc b0 b3).
    Local Notation itf := (itf rnd N L Q A).

    Lemma cycles_err f F k : (forall n, n < nn -> (Rabs (f n) <= F n)%R) -> (INR (k * (M + 10)) * u < 1)%R ->
      forall n, n < nn -> (Rabs (it k f n) <= it k F n)%R /\ (Rabs (itf k f n - it k f n) <= gamma u (k * (M + 10)) * it k F n)%R.
    Proof.
      intros HF. induction k as [|k IH]; intros Hk n Hn.
      - change (it 0 f n) with (f n). change (itf 0 f n) with (f n). change (it 0 F n) with (F n). split; [apply HF; exact Hn|]. rewrite Rminus_eq_0, Rabs_R0. unfold gamma. cbn [Nat.mul INR]. rewrite Rmult_0_l. unfold Rdiv. rewrite Rmult_0_l, Rmult_0_l. lra.
      - assert (Hk' : (INR (k * (M + 10)) * u < 1)%R). { assert (INR (k * (M + 10)) <= INR (S k * (M + 10)))%R by (apply le_INR; lia). nra. }
        specialize (IH Hk'). change (it (S k) f n) with (T (it k f) n). change (it (S k) F n) with (T (it k F) n). change (itf (S k) f n) with (Tf (itf k f) n).
        assert (G0 : (0 <= gamma u (S k * (M + 10)))%R) by (apply (gamma_nonneg u Hu); exact Hk).
        unfold Proof_Average3.T, Proof_FloatAverage.Tf. fold b0 b3. destruct (b0 n); [split; [rewrite Rabs_pos_eq by lra; lra|rewrite Rminus_eq_0, Rabs_R0; nra]|].
        destruct (b3 n); [split; [rewrite Rabs_R0; lra|rewrite Rminus_eq_0, Rabs_R0; lra]|].
        assert (P : forall m, m < nn -> (Rabs (it k f m) <= it k F m)%R) by (intros m Hm'; apply IH; exact Hm').
        assert (SA := smoothed_abs (it k f) (it k F) n P). split; [exact SA|].
        assert (SF : (0 <= smoothed N nc (it k F) n)%R) by (eapply Rle_trans; [apply Rabs_pos|exact SA]).
        set (gk := gamma u (k * (M + 10))) in *. assert (Gk : (0 <= gk)%R) by (apply (gamma_nonneg u Hu); exact Hk').
        eapply Rle_trans; [apply (smoothedf_err2 (itf k f) (it k f) (fun m => (gk * it k F m)%R) n Hn); intros m Hm'; apply IH; exact Hm'|].
        assert (Gm := gamma_nonneg u Hu (M + 10) Hm). rewrite smoothed_scal.
        assert (S1 : (smoothed N nc (fun m => Rabs (itf k f m)) n <= (1 + gk) * smoothed N nc (it k F) n)%R).
        { rewrite <- smoothed_scal. apply (smoothed_le N nn nc HN). intros m Hm'. destruct (IH m Hm') as (Z1 & Z2).
          replace (itf k f m) with (it k f m + (itf k f m - it k f m))%R by ring. eapply Rle_trans; [apply Rabs_triang|]. lra. }
        assert (GA := gamma_add (M + 10) (k * (M + 10)) ltac:(exact Hk)). change (M + 10 + k * (M + 10)) with (S k * (M + 10)) in GA. fold gk in GA.
        apply Rle_trans with (gamma u (M + 10) * ((1 + gk) * smoothed N nc (it k F) n) + gk * smoothed N nc (it k F) n)%R; [apply Rplus_le_compat_r, Rmult_le_compat_l; assumption|].
        apply Rle_trans with ((gamma u (M + 10) + gk + gamma u (M + 10) * gk) * smoothed N nc (it k F) n)%R; [lra|]. apply Rmult_le_compat_r; assumption.
    Qed.

    (** a bound that does not grow with the number of cycles *)
    Lemma barrier_err w C K f k : (forall n, n < nn -> b0 n = false -> b3 n = false -> (smoothed N nc w n + 1 <= w n)%R) -> (forall n, n < nn -> (1 <= w n <= C)%R) ->
      (10 <= K)%R -> (forall n, n < nn -> (Rabs (f n) <= K)%R) -> (gamma u (M + 10) * C <= / 2)%R ->
      forall n, n < nn -> (Rabs (itf k f n - it k f n) <= 2 * gamma u (M + 10) * K * w n)%R.
    Proof.
      intros Hw HC HK Hf HG. assert (Gm := gamma_nonneg u Hu (M + 10) Hm). set (g := gamma u (M + 10)) in *. set (E := (2 * g * K)%R). assert (E0 : (0 <= E)%R) by (unfold E; nra).
      assert (Bk : forall k n, n < nn -> (- K <= it k f n <= K)%R).
      { intros k'. apply (it_bounds N nn nc b0 b3 HN); [lra|lra|]. intros n Hn. assert (Z := Hf n Hn). assert (Z1 := Rle_abs (f n)). assert (Z2 := Rle_abs (- f n)). rewrite Rabs_Ropp in Z2. lra. }
      induction k as [|k IH]; intros n Hn.
      - change (it 0 f n) with (f n). change (itf 0 f n) with (f n). rewrite Rminus_eq_0, Rabs_R0. assert (Z := HC n Hn). apply Rmult_le_pos; [exact E0|lra].
      - change (it (S k) f n) with (T (it k f) n). change (itf (S k) f n) with (Tf (itf k f) n). assert (Wn := HC n Hn). assert (0 <= E * w n)%R by (apply Rmult_le_pos; lra). fold E.
        unfold Proof_Average3.T, Proof_FloatAverage.Tf. fold b0 b3. destruct (b0 n) eqn:E1; [rewrite Rminus_eq_0, Rabs_R0; lra|]. destruct (b3 n) eqn:E2; [rewrite Rminus_eq_0, Rabs_R0; lra|].
        assert (Wf := Hw n Hn E1 E2).
        eapply Rle_trans; [apply (smoothedf_err2 (itf k f) (it k f) (fun m => (E * w m)%R) n Hn); exact IH|]. fold g. rewrite smoothed_scal.
        assert (S1 : (smoothed N nc (fun m => Rabs (itf k f m)) n <= K + E * smoothed N nc w n)%R).
        { eapply Rle_trans; [apply (smoothed_le N nn nc HN _ (fun m => (K + E * w m)%R))|].
          - intros m Hm'. replace (itf k f m) with (it k f m + (itf k f m - it k f m))%R by ring. eapply Rle_trans; [apply Rabs_triang|]. apply Rplus_le_compat; [apply Rabs_le, Bk; exact Hm'|apply IH; exact Hm'].
          - rewrite (smoothed_plus (fun _ => K) (fun m => (E * w m)%R)), smoothed_scal. apply Rplus_le_compat_r.
            destruct (Nat.eq_dec (corner_count N nc n) 0) as [Z|NZ]; [rewrite smoothed_none by exact Z; lra|]. rewrite smoothed_const by lia. lra. }
        set (s := smoothed N nc w n) in *. assert (g * w n <= / 2)%R by (eapply Rle_trans; [|exact HG]; apply Rmult_le_compat_l; lra).
        assert (Z1 : (g * smoothed N nc (fun m => Rabs (itf k f m)) n <= g * (K + E * s))%R) by (apply Rmult_le_compat_l; assumption).
        assert (Z2 : (E * s <= E * (w n - 1))%R) by (apply Rmult_le_compat_l; lra).
        assert (Z3 : (g * (E * s) <= g * (E * w n))%R) by (apply Rmult_le_compat_l; [lra|]; apply Rmult_le_compat_l; lra).
        assert (Z4 : (g * (E * w n) <= E * / 2)%R) by (replace (g * (E * w n))%R with (E * (g * w n))%R by ring; apply Rmult_le_compat_l; lra).
        assert (Z5 : (g * K = E * / 2)%R) by (unfold E; field). lra.
    Qed.
  End Cycles.
End Mesh.
End Err.

(** a field that the smoothing lowers by at least 1 away from the boundary values, on linked meshes *)
Section Barrier.
  Variables (N : nat -> nat -> nat) (nn nc : nat) (b0 b3 : nat -> bool).
  Hypothesis HN : forall c l, c < nc -> l < 8 -> N c l < nn.
  Hypothesis HR : forall n, n < nn -> linked N nc (fixed b0 b3) n.
  Definition gap (k : nat) (n : nat) : R := (it N nc b0 b3 k (fun _ => 1%R) n - it N nc b0 b3 k (fun _ => 0%R) n)%R.
  Lemma gap_S k n : b0 n = false -> b3 n = false -> gap (S k) n = smoothed N nc (gap k) n.
  Proof.
    intros E0 E3. unfold gap. change (it N nc b0 b3 (S k) (fun _ => 1%R)) with (T N nc b0 b3 (it N nc b0 b3 k (fun _ => 1%R))). change (it N nc b0 b3 (S k) (fun _ => 0%R)) with (T N nc b0 b3 (it N nc b0 b3 k (fun _ => 0%R))).
    unfold T. rewrite E0, E3. apply smoothed_minus.
  Qed.
  Lemma gap_small : exists s, forall n, n < nn -> (gap (S s) n <= / 2)%R.
  Proof.
    destruct (converges N nn nc b0 b3 HN HR) as (h & _ & Hc).
    assert (C : forall n, n < nn -> exists K, forall k, K <= k -> (gap k n <= / 2)%R).
    { intros n Hn. destruct (Hc (fun _ => 1%R) n Hn (/ 4)%R ltac:(lra)) as (K1 & Q1). destruct (Hc (fun _ => 0%R) n Hn (/ 4)%R ltac:(lra)) as (K2 & Q2). exists (Nat.max K1 K2). intros k Hk.
      specialize (Q1 k ltac:(lia)). specialize (Q2 k ltac:(lia)). unfold R_dist in Q1, Q2. apply Rabs_def2 in Q1, Q2. unfold gap. lra. }
    assert (D : forall m, m <= nn -> exists s, forall n, n < m -> forall k, s <= k -> (gap k n <= / 2)%R).
    { induction m as [|m IH]; intros Hm; [exists 0; intros; lia|]. destruct (IH ltac:(lia)) as (s & Hs). destruct (C m ltac:(lia)) as (K & HK). exists (Nat.max s K). intros n Hn k Hk.
      destruct (Nat.eq_dec n m) as [->|]; [apply HK; lia|apply Hs; lia]. }
    destruct (D nn ltac:(lia)) as (s & Hs). exists s. intros n Hn. apply Hs; lia.
  Qed.
  Lemma gap_pos k n : n < nn -> (0 <= gap k n)%R.
  Proof. intros Hn. unfold gap. assert (Z := it_le N nn nc b0 b3 HN k (fun _ => 0%R) (fun _ => 1%R) ltac:(intros; lra) n Hn). lra. Qed.
  Lemma smoothed_rsum s (g : nat -> nat -> R) n : smoothed N nc (fun m => rsum s (fun k => g k m)) n = rsum s (fun k => smoothed N nc (g k) n).
  Proof.
    induction s as [|s IH]; cbn [rsum].
    - unfold smoothed, node_mean. destruct (_ =? 0); [reflexivity|]. unfold Rdiv. rewrite rsum_zero; [ring|]. intros c _. rewrite cell_mean_const. ring.
    - rewrite <- IH. unfold smoothed, node_mean. destruct (_ =? 0); [ring|]. unfold Rdiv. rewrite <- Rmult_plus_distr_r, <- rsum_plus. f_equal. apply rsum_ext. intros c _.
      unfold cell_mean, Rdiv. rewrite rsum_plus. ring.
  Qed.
  Lemma barrier : exists w C, (forall n, n < nn -> b0 n = false -> b3 n = false -> (smoothed N nc w n + 1 <= w n)%R) /\ (forall n, n < nn -> (1 <= w n <= C)%R).
  Proof.
    destruct gap_small as (s & Hs). set (w := fun n => rsum (S s) (fun k => (2 * gap k n)%R)).
    assert (W1 : forall n, n < nn -> (1 <= w n)%R).
    { intros n Hn. unfold w. rewrite rsum_S_l. assert (gap 0 n = 1)%R by (unfold gap; cbn; ring). assert (0 <= rsum s (fun i => 2 * gap (S i) n))%R by (apply rsum_nonneg; intros i _; assert (Z := gap_pos (S i) n Hn); lra). lra. }
    exists w. destruct nn as [|m] eqn:En.
    - exists 1%R. split; intros; lia.
    - destruct (Proof_High3.exists_max (S m) w ltac:(lia)) as (a & Ha & Hmax). exists (w a). split; [|intros n Hn; split; [apply W1; exact Hn|apply Hmax; exact Hn]].
      intros n Hn E0 E3. unfold w. rewrite (smoothed_rsum (S s) (fun k m => (2 * gap k m)%R)).
      rewrite (rsum_ext (S s) (fun k => smoothed N nc (fun m => (2 * gap k m)%R) n) (fun k => (2 * gap (S k) n)%R)).
      + rewrite (rsum_S_l s (fun k => (2 * gap k n)%R)). cbn [rsum]. assert (gap 0 n = 1)%R by (unfold gap; cbn; ring). assert (Z := Hs n ltac:(lia)). lra.
      + intros k _. rewrite (gap_S k n E0 E3). unfold smoothed, node_mean. destruct (_ =? 0); [ring|]. unfold Rdiv. rewrite <- Rmult_assoc, <- rsum_scal_l. f_equal. apply rsum_ext. intros c _.
        unfold cell_mean, Rdiv. rewrite rsum_scal_l. ring.
  Qed.
End Barrier.
