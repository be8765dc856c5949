(** The two unit cubes side by side at order 1 in binary64: the last refined cell. *)
From Coq Require Import Reals List Arith ZArith Lra Lia Bool.
Import ListNotations.
Require Import Verif.Base Verif.RBase Verif.RSum Verif.Spec_Patch Verif.Model_Quad Verif.Model_Geom Verif.Model_Conn Verif.Model_Refine Verif.Model_Ref Verif.Model_High Verif.Spec_Quad Verif.Spec_High Verif.Proof_High
  Verif.Proof_High3 Verif.Model_Full Verif.Spec_Full Verif.Proof_Full Verif.Proof_Full2 Verif.Proof_Full3 Verif.Proof_Full4 Verif.Prop_Full
  Verif.Spec_Float Verif.Float_Base Verif.Model_FloatRefine Verif.Spec_FloatRefine Verif.Proof_FloatRefine Verif.Proof_FloatRefine2 Verif.Proof_FloatRefine3 Verif.Proof_FloatRefine4 Verif.Proof_FloatRefine5 Verif.Prop_High Verif.Prop_Full2 Verif.Ex_FloatRefine Verif.Prop_FloatRefine
  Verif.Model_FloatPatch Verif.Spec_FloatPatch Verif.Prop_FloatPatch Verif.Spec_File Verif.Model_Average Verif.Proof_FloatPoly Verif.Spec_FloatPoly Verif.Proof_FloatRun2 Verif.Model_Patch.
Local Open Scope nat_scope.

Lemma brick_pos g i : g < 54 -> i < 3 -> exists k, (k = 0 \/ k = 1 \/ k = 2)%R /\
  tri_pos 1 brick_n (brick_x 1 1 1) g i = match i with 0 => (INR (g / 27) + k / 2)%R | _ => (k / 2)%R end /\ (k = lob 3 (grid 3 g i) + 1)%R.
Proof.
  intros Hg Hi. rewrite tri_pos_map. change (pts1 1) with 3%nat. change (3 ^ 3) with 27. assert (He : g / 27 < 2) by (apply Nat.div_lt_upper_bound; lia). set (e := g / 27) in *. clearbody e.
  assert (L : forall k, (k < 3)%nat -> (lob 3 k = -1 \/ lob 3 k = 0 \/ lob 3 k = 1)%R) by (intros k Hk; unfold lob; do 3 (destruct k as [|k]; [cbn; unfold dec; cbn; lra|]); lia).
  assert (L' := L (grid 3 g i) (grid_lt 3 g i ltac:(lia))). set (q := fun j => lob 3 (grid 3 g j)). fold (q i) in L'. fold (q i).
  exists (q i + 1)%R. split; [lra|]. split; [|reflexivity]. clearbody q. clear L L' Hg.
  do 2 (destruct e as [|e]; [do 3 (destruct i as [|i]; [unfold tri_map, tri_basis, ref_vert, brick_x, brick_n; cbn; field|]); lia|]). lia.
Qed.
Lemma brick_double n i : n < 12 -> i < 3 -> binary64 (brick_x 1 1 1 n i) = brick_x 1 1 1 n i.
Proof.
  intros Hn Hi. assert (E : exists z, (Z.abs z < 2 ^ 53)%Z /\ brick_x 1 1 1 n i = IZR z).
  { exists (match i with 0%nat => Z.of_nat (n mod 3)%nat | 1%nat => Z.of_nat (n / 3 mod 2)%nat | _ => Z.of_nat (n / 6)%nat end).
    assert (n mod 3 < 3) by (apply Nat.mod_upper_bound; lia). assert (n / 3 mod 2 < 2) by (apply Nat.mod_upper_bound; lia). assert (n / 6 < 2) by (apply Nat.div_lt_upper_bound; lia).
    do 3 (destruct i as [|i]; [split; [lia|]; unfold brick_x; rewrite INR_IZR_INZ; ring|]). lia. }
  destruct E as (z & Hz & ->). apply b64_ints. exact Hz.
Qed.

(** the last cell of the refined mesh has no two corners at the same place *)
Lemma brick_last m r CN CX : cm_nodes m = 12 -> cm_cells m = 2 -> cdescribes m brick_n (brick_x 1 1 1) -> refine_cellsf binary64 1 m = Ok r -> cdescribes (rf_mesh r) CN CX ->
  (forall a b, a < 8 -> b < 8 -> a <> b -> exists i, i < 3 /\ CX (CN 15 a) i <> CX (CN 15 b) i) /\
  (forall l i, l < 8 -> i < 3 -> (Rabs (CX (CN 15%nat l) i) <= 10 ^ 63)%R).
Proof.
  intros Enn Ec HM Er' HMr.
  assert (B := u64_range). assert (U := u_e14).
  assert (G15 := gamma_small 15 ltac:(lia)). assert (G12 := gamma_small 12 ltac:(lia)). assert (G3 := gamma_small 3 ltac:(lia)). cbn [INR] in G15, G12, G3.
  assert (S0 : (/ 10 ^ 14 <= / 1000)%R) by (apply Rinv_le_contravar; [lra|]; apply Rle_trans with (10 ^ 3)%R; [lra|]; apply Rle_pow; [lra|lia]).
  assert (Eh : forall x, (x / node_bin 1 1 = x * 7)%R) by (intros x; unfold node_bin; change (INR (Nat.max 1 1)) with 1%R; field).
  assert (UL : (u64 <= / 1024)%R) by (unfold u64; apply Rinv_le_contravar; [lra|]; apply Rle_trans with (2 ^ 10)%R; [lra|]; apply Rle_pow; [lra|lia]).
  set (e := (/ 10 ^ 14)%R) in *. set (E := (gamma u64 15 * 2 + 3 / 2 * gamma u64 3 * 2)%R).
  assert (HE : (0 <= E <= 44 * u64)%R) by (unfold E; lra).
  assert (He : ((E + gamma u64 12 * (2 + E + e)) * 7 < 7 * e)%R) by nra. assert (He0 : (0 <= (E + gamma u64 12 * (2 + E + e)) * 7)%R) by nra.
  assert (He' : (gamma u64 12 * (2 + 1 + e) * 7 < 7 * e)%R) by nra. assert (He0' : (0 <= gamma u64 12 * (2 + 1 + e) * 7)%R) by nra.
  assert (BX : forall n i, n < 12 -> i < 3 -> (0 <= brick_x 1 1 1 n i <= match i with 0 => 2 | _ => 1 end)%R).
  { intros n i Hn Hi. do 12 (destruct n as [|n]; [do 3 (destruct i as [|i]; [cbn; lra|]); lia|]). lia. }
  destruct (C61_boxes 1 1 m brick_n (brick_x 1 1 1) _ _ _ 0 ltac:(lia) HM Ec (brick_boxes 1 1 1)) as (r0 & C0 & nd & CN0 & CX0 & pt0 & E0 & H0);
    [lia|intros d Hd; destruct d as [|[|d]]; lra|cbn; lra|lia|]. cbv zeta in H0. change (2 * pts1 1 ^ 3) with 54 in H0. change (2 * Spec_Full.sub1 1 ^ 3) with 16 in H0. destruct H0 as (Z1 & Z2 & Z3 & Z4 & Z5 & Z6 & Z7 & _).
  assert (Er : refine_cells 1 m = Ok r0) by exact (mesh_cells _ _ _ _ E0).
  destruct (C77_same_numbering u64 binary64 1 m brick_n (brick_x 1 1 1) 1%R 1 (fun _ => 0%R) (fun i => match i with 0 => 2 | _ => 1 end%R) 2%R 2%R double_like_b64 ltac:(lia)) as (r1 & r' & Er1 & Er1' & _ & _ & Q3 & _ & Q5 & Q6).
  - cbn [INR]. lra.
  - exact HM.
  - exact Ec.
  - split; [intros a b Ha Hb Ne; rewrite <- sqrt_1 at 1; apply sqrt_le_1_alt; do 8 (destruct a as [|a]; [do 8 (destruct b as [|b]; [try (exfalso; lia); cbn; lra|]); lia|]); lia|].
    exists 0, 1. repeat (split; [lia|]). rewrite <- sqrt_1 at 1. f_equal. cbn. lra.
  - exact one64.
  - rewrite Enn. intros i Hi. split; [intros n Hn; exact (BX n i Hn Hi)|]. split; [exists 0|exists 11]; (split; [lia|]); do 3 (destruct i as [|i]; [cbn; ring|]); lia.
  - intros i Hi. destruct i; lra.
  - rewrite Enn. intros n i Hn Hi. apply Rabs_le. assert (Y := BX n i Hn Hi). destruct i; lra.
  - apply Rle_trans with (10 ^ 1)%R; [lra|apply Rle_pow; [lra|lia]].
  - change (2 * pts1 1 ^ 3) with 54. intros g i Hg Hi. fold e E. rewrite !Eh. destruct (brick_pos g i Hg Hi) as (k & Hk & -> & _).
    assert (He1 : (INR (g / 27) = 0 \/ INR (g / 27) = 1)%R) by (assert (g / 27 < 2) by (apply Nat.div_lt_upper_bound; lia); destruct (g / 27) as [|[|x]]; [left; reflexivity|right; reflexivity|lia]).
    generalize dependent (INR (g / 27)). intros x Hx.
    assert (T : exists z, (match i with 0%nat => x + k / 2 | _ => k / 2 end = z)%R /\ (z = 0 \/ z = / 2 \/ z = 1 \/ z = 3 / 2 \/ z = 2)%R) by (eexists; split; [reflexivity|]; destruct i; lra).
    destruct T as (z & -> & Hz). destruct Hz as [-> |[-> |[-> |[-> | ->]]]].
    + apply (clear_near _ _ 0 (7 * e)); lra.
    + apply (clear_near _ _ 3 (/ 2 + 7 * e)); lra.
    + apply (clear_near _ _ 7 (7 * e)); lra.
    + apply (clear_near _ _ 10 (/ 2 + 7 * e)); lra.
    + apply (clear_near _ _ 14 (7 * e)); lra.
  - intros i Hi. fold e. rewrite !Eh. destruct i as [|i]; [apply (clear_near _ _ 21 (7 * e)); lra|apply (clear_near _ _ 14 (7 * e)); lra].
  - rewrite Er in Er1. injection Er1 as <-. rewrite Er' in Er1'. injection Er1' as <-. fold E in Q6.
    assert (Ecc : cm_cells (rf_mesh r) = 16).
    { destruct (C77_refined_mesh u64 binary64 1 m brick_n (brick_x 1 1 1) 1%R 1 double_like_b64 ltac:(lia) HM Ec) as (r2 & _ & _ & Er2 & Y & _).
      - split; [intros a b Ha Hb Ne; rewrite <- sqrt_1 at 1; apply sqrt_le_1_alt; do 8 (destruct a as [|a]; [do 8 (destruct b as [|b]; [try (exfalso; lia); cbn; lra|]); lia|]); lia|].
        exists 0, 1. repeat (split; [lia|]). rewrite <- sqrt_1 at 1. f_equal. cbn. lra.
      - exact one64.
      - rewrite Er' in Er2. injection Er2 as <-. exact Y. }
    assert (P : forall c, c < 8 -> forall i, i < 3 -> (Rabs (CX (CN 15%nat c) i - match i with 0%nat => 1 + (1 + INR (corner_coord c i)) / 2 | _ => (1 + INR (corner_coord c i)) / 2 end) <= E)%R).
    { intros c Hc i Hi. destruct (proj1 Z2 15 c ltac:(rewrite Z1; lia) Hc) as (Y1 & Y2). assert (Y3 := Z7 1 1 1 1 c ltac:(lia) ltac:(cbn; lia) ltac:(cbn; lia) ltac:(cbn; lia) Hc). change (cell_id 1 1 1 1 1) with 15 in Y3. change (1 * pts1 1 ^ 3) with 27 in Y3.
      assert (L : 27 + corner_pt 1 1 1 1 c < 54) by (clear - Hc; do 8 (destruct c as [|c]; [vm_compute; lia|]); lia).
      destruct (proj1 HMr 15 c ltac:(lia) Hc) as (X1 & X2). assert (X3 : CN 15 c = CN0 15 c) by (unfold cm_node in *; rewrite Q5 in X1; rewrite Y1 in X1; injection X1 as X1; auto). rewrite X3 in *.
      destruct (Q6 _ i Y2 Hi) as (a & a' & F1 & F2 & G). rewrite (proj2 Z2 _ i Y2 Hi) in F1. injection F1 as <-. rewrite (proj2 HMr _ i X2 Hi) in F2. injection F2 as <-.
      rewrite Y3 in G at 2. rewrite (proj2 (proj2 (Z3 _ L)) i Hi) in G.
      assert (V : (tri_pos 1 brick_n (brick_x 1 1 1) (27 + corner_pt 1 1 1 1 c) i = match i with 0%nat => 1 + (1 + INR (corner_coord c i)) / 2 | _ => (1 + INR (corner_coord c i)) / 2 end)%R).
      { destruct (brick_pos _ i L Hi) as (k & _ & -> & ->). assert (L1 : (lob 3 1 = 0 /\ lob 3 2 = 1)%R) by (unfold lob; cbn; unfold dec; cbn; lra). destruct L1 as (L1 & L2).
        assert (G27 : INR ((27 + corner_pt 1 1 1 1 c) / 27) = 1%R) by (clear - Hc; do 8 (destruct c as [|c]; [reflexivity|]); lia). rewrite G27.
        assert (LQ : lob 3 (grid 3 (27 + corner_pt 1 1 1 1 c) i) = INR (corner_coord c i)).
        { clear - Hc Hi L1 L2. do 8 (destruct c as [|c]; [do 3 (destruct i as [|i]; [first [transitivity (lob 3 1); [reflexivity|rewrite L1; reflexivity]|transitivity (lob 3 2); [reflexivity|rewrite L2; reflexivity]]|]); lia|]). lia. }
        rewrite LQ. destruct i; lra. }
      rewrite V in G. exact G. }
    assert (U4 : (44 * u64 < / 20)%R) by lra. split.
    + intros a b Ha Hb Ne. assert (exists i, i < 3 /\ corner_coord a i <> corner_coord b i) as (i & Hi & Nc).
      { clear - Ha Hb Ne. destruct (Nat.eq_dec (corner_coord a 0) (corner_coord b 0)) as [Q0|]; [|exists 0; auto]. destruct (Nat.eq_dec (corner_coord a 1) (corner_coord b 1)) as [Q1|]; [|exists 1; auto]. exists 2. split; [lia|]. intros Q2. apply Ne.
        do 8 (destruct a as [|a]; [do 8 (destruct b as [|b]; [try reflexivity; vm_compute in Q0, Q1, Q2; discriminate|]); lia|]). lia. }
      exists i. split; [exact Hi|]. intros Q. assert (Pa := Rabs_in _ _ (P a Ha i Hi)). assert (Pb := Rabs_in _ _ (P b Hb i Hi)). rewrite Q in Pa.
      assert (c2 : forall c, corner_coord c i = 0 \/ corner_coord c i = 1) by (intros c; assert (corner_coord c i < 2) by (apply Nat.mod_upper_bound; lia); lia).
      destruct (c2 a) as [Qa|Qa], (c2 b) as [Qb|Qb]; rewrite Qa, Qb in *; try lia; cbn [INR] in Pa, Pb; destruct i; lra.
    + intros l i Hl Hi. assert (Pl := Rabs_in _ _ (P l Hl i Hi)). assert (c2 : (0 <= INR (corner_coord l i) <= 1)%R) by (split; [apply pos_INR|]; assert (corner_coord l i < 2) by (apply Nat.mod_upper_bound; lia); apply (le_INR _ 1); lia).
      apply Rle_trans with (10 ^ 1)%R; [apply Rabs_le; destruct i; lra|apply Rle_pow; [lra|lia]].
Qed.
