(** Patches in rounded arithmetic: two cells that list a common side in different orders. *)
From Coq Require Import Reals List Arith ZArith Lra Lia.
From Flocq Require Import Core.
Import ListNotations.
Require Import Verif.Base Verif.RBase Verif.RSum Verif.Spec_Patch Verif.Model_Geom Verif.Proof_Geom Verif.Model_Conn Verif.Model_Refine Verif.Model_Ref Verif.Model_High Verif.Spec_Quad Verif.Spec_High
  Verif.Proof_High Verif.Proof_High3 Verif.Model_Full Verif.Spec_Full Verif.Proof_Full Verif.Proof_Full2 Verif.Proof_Full3 Verif.Proof_Full4 Verif.Prop_Full
  Verif.Spec_Float Verif.Float_Base Verif.Proof_FloatPoly Verif.Float_Eval Verif.Model_FloatRefine Verif.Spec_FloatRefine Verif.Proof_FloatRefine Verif.Proof_FloatRefine2 Verif.Proof_FloatRefine3 Verif.Proof_FloatRefine4 Verif.Proof_FloatRefine5 Verif.Ex_FloatRefine
  Verif.Model_FloatPatch Verif.Spec_FloatPatch Verif.Proof_FloatPatch Verif.Proof_FloatPatch2 Verif.Proof_FloatPatch3 Verif.Proof_FloatPatch4 Verif.Model_Patch.
Local Open Scope R_scope.

(** node n = 4 L + i + 2 j: layer L at x = 96 L; y is about 2^30 + 1024 i, z = 1024 j *)
Definition pcoords : list (Z * Z) := [
  (0, 0); (1073741824, 0); (0, 0);
  (0, 0); (1073742848, 0); (0, 0);
  (0, 0); (1073741824, 0); (1024, 0);
  (0, 0); (1073742848, 0); (1024, 0);
  (96, 0); (1073741824, 0); (0, 0);
  (96, 0); (4503603922337791, -22); (0, 0);
  (96, 0); (1073741824, 0); (1024, 0);
  (96, 0); (4503603922337790, -22); (1024, 0);
  (192, 0); (1073741824, 0); (0, 0);
  (192, 0); (1073742848, 0); (0, 0);
  (192, 0); (1073741824, 0); (1024, 0);
  (192, 0); (1073742848, 0); (1024, 0)]%Z.
Definition pX (n d : nat) : R := val (nth (n * 3 + d) pcoords (0, 0)%Z).
Definition pmesh : cmesh := CMesh 12 2 (map (fun a => Some (val a)) pcoords) (map Some tconn).
Lemma p_describes : cdescribes pmesh tN pX.
Proof.
  split.
  - intros e v He Hv. cbn [pmesh cm_cells] in He. unfold cm_node, getu, get. cbn [pmesh cm_conn cm_nodes]. rewrite nth_error_map.
    assert (e = 0 \/ e = 1)%nat as [-> | ->] by lia; do 8 (destruct v as [|v]; [split; [reflexivity|vm_compute; repeat constructor]|]); lia.
  - intros n d Hn Hd. cbn [pmesh cm_nodes] in Hn. unfold cm_coord, getu, get. cbn [pmesh cm_coords]. unfold pX.
    do 12 (destruct n as [|n]; [do 3 (destruct d as [|d]; [reflexivity|]); lia|]). lia.
Qed.
Definition p5 : R := val (4503603922337791, -22)%Z.
Definition p7 : R := val (4503603922337790, -22)%Z.
Lemma p57 : 1073742847 < p5 < 1073742848 /\ 1073742847 < p7 < 1073742848.
Proof.
  unfold p5, p7, val. cbn [fst snd]. assert (P := bpow_gt_0 radix2 (-22)). assert (Q : bpow radix2 (-22) * IZR (2 ^ 22) = 1) by (change (IZR (2 ^ 22)) with (bpow radix2 22); rewrite <- bpow_plus; reflexivity).
  change (2 ^ 22)%Z with 4194304%Z in Q. repeat split; nra.
Qed.
Lemma p_box : is_box 12 pX (fun i => match i with 1%nat => 1073741824 | _ => 0 end) (fun i => match i with O => 192 | 1%nat => 1073742848 | _ => 1024 end).
Proof.
  destruct p57 as (A & D).
  intros i Hi. split; [|split].
  - intros n Hn. unfold pX. do 12 (destruct n as [|n]; [do 3 (destruct i as [|i]; [cbn [nth pcoords Nat.add Nat.mul]; rewrite ?v_int; fold p5 p7; lra|]); lia|]). lia.
  - exists 0%nat. split; [lia|]. unfold pX. do 3 (destruct i as [|i]; [cbn [nth pcoords Nat.add Nat.mul]; rewrite ?v_int; reflexivity|]). lia.
  - exists 11%nat. split; [lia|]. unfold pX. do 3 (destruct i as [|i]; [cbn [nth pcoords Nat.add Nat.mul]; rewrite ?v_int; reflexivity|]). lia.
Qed.
Lemma p_doubles n d : binary64 (pX n d) = pX n d.
Proof.
  unfold pX. assert (Q : forall a, In a pcoords -> binary64 (val a) = val a).
  { intros a Ha. unfold pcoords in Ha. cbn [In] in Ha.
    assert (G : forall m e, (Z.abs m < 2 ^ 53)%Z -> binary64 (val (m, e)) = val (m, e)).
    { intros m e H. unfold binary64. apply round_generic; [typeclasses eauto|]. apply generic_format_FLX. exists (Float radix2 m e); [reflexivity|exact H]. }
    repeat (destruct Ha as [<- |Ha]; [apply G; reflexivity|]). contradiction. }
  destruct (nth_in_or_default (n * 3 + d) pcoords (0, 0)%Z) as [I| ->]; [apply Q, I|]. rewrite v_int. apply (dl_0 _ _ double_like_b64).
Qed.
Lemma p_spacing : corner_spacing tN pX 1 96.
Proof.
  destruct p57 as (A & D). split.
  - assert (G : forall x y z, 96 * 96 <= x ^ 2 + y ^ 2 + z ^ 2 -> 96 <= sqrt (x ^ 2 + y ^ 2 + z ^ 2)) by (intros x y z H; rewrite <- (sqrt_square 96) by lra; apply sqrt_le_1_alt; exact H).
    intros a b Ha Hb Ne. apply G.
    do 8 (destruct a as [|a]; [do 8 (destruct b as [|b]; [try (exfalso; lia); unfold pX, tN; cbn [nth pcoords tconn Nat.add Nat.mul]; rewrite ?v_int; fold p5 p7; try nra|]); exfalso; lia|]). exfalso; lia.
  - exists 0%nat, 1%nat. repeat (split; [lia|]). unfold pX, tN; cbn [nth pcoords tconn Nat.add Nat.mul]; rewrite !v_int. rewrite <- (sqrt_square 96) at 1 by lra. f_equal. ring.
Qed.
Lemma p96 : 0 < 96 <= 10 ^ 64.
Proof. split; [lra|]. apply Rle_trans with (10 ^ 2); [lra|]. apply Rle_pow; [lra|lia]. Qed.
Lemma b64_96 : binary64 96 = 96.
Proof. apply b64_ints. reflexivity. Qed.
Lemma b64_sq : binary64 (96 * 96) = 96 * 96.
Proof. replace (96 * 96) with 9216 by ring. apply b64_ints. reflexivity. Qed.
Lemma p_dist : patch_last_distf binary64 pmesh = Ok 96.
Proof.
  destruct (patch_last_distf_v binary64 pmesh tN pX 1 p_describes eq_refl) as (v & Hv & ->). f_equal.
  destruct p57 as (A & D).
  assert (F : forall a b, (a < b < 8)%nat -> exists d, (d < 3)%nat /\ 96 <= Rabs (v b d - v a d)).
  { intros a b Hab.
    assert (G : forall d x y, (d < 3)%nat -> v b d = x -> v a d = y -> 96 <= x - y \/ 96 <= y - x -> exists d, (d < 3)%nat /\ 96 <= Rabs (v b d - v a d)).
    { intros d x y Hd Ex Ey Q. exists d. split; [exact Hd|]. rewrite Ex, Ey. destruct Q as [Q|Q]; [eapply Rle_trans; [exact Q|apply Rle_abs]|]. rewrite Rabs_minus_sym. eapply Rle_trans; [exact Q|apply Rle_abs]. }
    assert (H8 : forall l d, (l < 8)%nat -> (d < 3)%nat -> v l d = pX (tN 1 l) d) by exact Hv.
    do 8 (destruct b as [|b]; [try (exfalso; lia);
      do 8 (destruct a as [|a]; [try (exfalso; lia);
        (eapply (G 0%nat); [lia|apply H8; lia|apply H8; lia|unfold pX, tN; cbn [nth pcoords tconn Nat.add Nat.mul]; rewrite !v_int; lra]) ||
        (eapply (G 2%nat); [lia|apply H8; lia|apply H8; lia|unfold pX, tN; cbn [nth pcoords tconn Nat.add Nat.mul]; rewrite !v_int; lra]) ||
        (eapply (G 1%nat); [lia|apply H8; lia|apply H8; lia|unfold pX, tN; cbn [nth pcoords tconn Nat.add Nat.mul]; rewrite ?v_int; fold p5 p7; lra])|]); exfalso; lia|]). exfalso; lia. }
  apply (dist_min_eq u64 binary64 double_like_b64 96); [lra|exact b64_96|exact b64_sq| |exact F|].
  - destruct (F 0%nat 1%nat ltac:(lia)) as (d & Hd & Q). exact (node_distf_ge u64 binary64 double_like_b64 96 ltac:(lra) b64_96 b64_sq v 0 1 d Hd Q).
  - exists 0%nat, 1%nat. split; [lia|]. rewrite !Hv by lia. unfold pX, tN; cbn [nth pcoords tconn Nat.add Nat.mul]; rewrite !v_int. repeat split; lra.
Qed.
Lemma e12 : binary64 (/ 10 ^ 12) = val (4951760157141521, -92)%Z.
Proof.
  replace (/ 10 ^ 12) with (IZR 1 / IZR (10 ^ 12) * bpow radix2 0) by (change (bpow radix2 0) with 1; rewrite Rmult_1_r; unfold Rdiv; rewrite Rmult_1_l; f_equal; rewrite pow_IZR; reflexivity).
  apply fr_ok; [reflexivity|reflexivity].
Qed.

(** the centre of the common side, as computed in the two cells *)
Definition pc0 (i : nat) : R := match i with O => val (96, 0)%Z | 1%nat => val (1073742336, 0)%Z | _ => val (512, 0)%Z end.
Definition pc1 (i : nat) : R := match i with O => val (96, 0)%Z | 1%nat => val (4503601774854143, -22)%Z | _ => val (512, 0)%Z end.
Lemma centre0 i : (i < 3)%nat -> centref binary64 tN pX 0 1 i = pc0 i.
Proof.
  intros Hi. unfold centref. cbn [fold_up]. rewrite v0, v4. unfold pX, tN.
  destruct i as [|[|[|i]]]; [| | |lia]; cbn [nth pcoords tconn Nat.add Nat.mul side_corner pc0]; repeat fstep; norm.
Qed.
Lemma centre1 i : (i < 3)%nat -> centref binary64 tN pX 1 1 i = pc1 i.
Proof.
  intros Hi. unfold centref. cbn [fold_up]. rewrite v0, v4. unfold pX, tN.
  destruct i as [|[|[|i]]]; [| | |lia]; cbn [nth pcoords tconn Nat.add Nat.mul side_corner pc1]; repeat fstep; norm.
Qed.
Lemma max_small a : (0 < fst a)%Z -> (-52 <= snd a)%Z -> Rmax (binary64 (/ 10 ^ 16)) (val a) = val a.
Proof.
  intros Ha He. apply Rmax_right. assert (S1 : / 10 ^ 16 <= bpow radix2 (-52)).
  { change (bpow radix2 (-52)) with (/ IZR (2 ^ 52)). apply Rinv_le_contravar; [apply IZR_lt; reflexivity|]. rewrite pow_IZR. apply IZR_le. vm_compute. discriminate. }
  assert (B : binary64 (bpow radix2 (-52)) = bpow radix2 (-52)).
  { unfold binary64. apply round_generic; [typeclasses eauto|]. apply generic_format_bpow. unfold FLX_exp. lia. }
  apply Rle_trans with (bpow radix2 (-52)); [rewrite <- B; apply (dl_mono _ _ double_like_b64); exact S1|].
  unfold val. assert (P : 1 <= IZR (fst a)) by (apply IZR_le; lia). assert (Q : bpow radix2 (-52) <= bpow radix2 (snd a)) by (apply bpow_le; exact He). assert (Z := bpow_gt_0 radix2 (-52)). nra.
Qed.
Lemma trunc_val m e k : (e <=? 0)%Z = true -> (0 <= k /\ k * 2 ^ (- e) <= m < (k + 1) * 2 ^ (- e))%Z -> trunc (val (m, e)) = k.
Proof.
  intros He (Hk & H1 & H2). apply Z.leb_le in He. unfold val. cbn [fst snd]. apply IZR_le in H1. apply IZR_lt in H2. apply IZR_le in Hk. rewrite !mult_IZR, plus_IZR in *.
  assert (E : IZR (2 ^ (- e)) * bpow radix2 e = 1) by (change 2%Z with (radix_val radix2); rewrite IZR_Zpower by lia; rewrite <- bpow_plus; replace (- e + e)%Z with 0%Z by lia; reflexivity).
  assert (P := bpow_gt_0 radix2 e). set (b := bpow radix2 e) in *. set (t := IZR (2 ^ (- e))) in *.
  assert (A1 : IZR k <= IZR m * b) by (replace (IZR k) with (IZR k * t * b) by (rewrite Rmult_assoc, E; ring); apply Rmult_le_compat_r; lra).
  assert (A2 : IZR m * b < IZR k + 1) by (replace (IZR k + 1) with ((IZR k + 1) * t * b) by (rewrite Rmult_assoc, E; ring); apply Rmult_lt_compat_r; lra).
  apply trunc_unique; lra.
Qed.
Lemma v32 : 32 = val (32, 0)%Z. Proof. rewrite v_int. reflexivity. Qed.
Lemma p_keys mn mx : (forall i, (i < 3)%nat -> mn i = match i with 1%nat => val (1073741824, 0)%Z | _ => val (0, 0)%Z end /\ mx i = match i with O => val (192, 0)%Z | 1%nat => val (1073742848, 0)%Z | _ => val (1024, 0)%Z end) ->
  trunc (rkeyf binary64 32 mn mx pc0) = 3171%Z /\ trunc (rkeyf binary64 32 mn mx pc1) = 3170%Z.
Proof.
  intros H. unfold rkeyf. cbv zeta. destruct (H 0%nat ltac:(lia)) as (-> & ->). destruct (H 1%nat ltac:(lia)) as (-> & ->). destruct (H 2%nat ltac:(lia)) as (-> & _).
  rewrite e12, v32. cbn [pc0 pc1]. repeat fstep. rewrite !max_small by (cbn; lia). repeat fstep.
  split; (apply trunc_val; [reflexivity|split; [lia|split; [apply Z.leb_le; vm_compute; reflexivity|apply Z.ltb_lt; vm_compute; reflexivity]]]).
Qed.

Theorem swapped_side : exists C C' ve v v',
  build_connectivity 8 2 (map Some tconn) pmesh = Ok C /\ patches_in_cell (cn_patches C) 0 1 = Ok ve /\ patches_in_cell (cn_patches C) 1 1 = Ok ve /\
  build_connectivityf binary64 8 2 (map Some tconn) pmesh = Ok C' /\ patches_in_cell (cn_patches C') 0 1 = Ok v /\ patches_in_cell (cn_patches C') 1 1 = Ok v' /\ v <> v'.
Proof.
  assert (HG : forall e l, (e < 2)%nat -> (l < 8)%nat -> getu (map Some tconn) (e * 8 + l) = Ok (tN e l) /\ (tN e l < cm_nodes pmesh)%nat) by (intros e l He Hl; exact (proj1 p_describes e l He Hl)).
  assert (Sh : exists c c', (c < 2)%nat /\ (c' < 2)%nat /\ c <> c' /\ touch 8 tN c c') by (exists 0%nat, 1%nat; repeat (split; [lia|]); exists 1%nat, 1%nat; repeat split; lia || reflexivity).
  destruct (C61_connectivity 8 2 (map Some tconn) pmesh tN pX tN 96 1 p_describes eq_refl p_spacing p96 HG ltac:(lia) Sh) as (C & pt & EC & _ & _ & _ & (_ & Ap & _) & Ac & _).
  destruct (face_keysf_full u64 binary64 double_like_b64 pmesh tN pX 96 1 p_describes eq_refl p_spacing p96) as (ks & mx & mn & t & Ek & Lk & Eb & _ & _ & (d' & Ed & Et) & Hk).
  rewrite p_dist in Ed. injection Ed as <-.
  assert (M96 : Rmin (binary64 (10 ^ 64)) 96 = 96) by (apply Rmin_right; rewrite <- b64_96; apply (dl_mono _ _ double_like_b64); apply p96).
  rewrite M96 in Et. replace (96 / 3) with 32 in Et by field. rewrite (b64_ints 32%Z) in Et by reflexivity. replace (96 / 3 * t) with 32 in Hk by (rewrite <- Et; field).
  destruct (conn_from_ok (face_keysf binary64 pmesh) ks 8 2 (map Some tconn) pmesh tN pX tN 1 p_describes eq_refl Ek Lk HG ltac:(lia) Sh) as (C' & pt' & EC' & _ & _ & _ & (_ & Ap' & _) & Ac' & _).
  destruct (box_is (binary64 (10 ^ 64)) pmesh tN pX _ _ p_describes p_box) as (mx1 & mn1 & Eb1 & Hbox).
  { intros n i Hn Hi. assert (Q := p_box i Hi). destruct Q as (Q & _). specialize (Q n Hn). assert (X1 : Rabs (pX n i) <= 1073742848) by (apply Rabs_le; destruct i as [|[|i]]; lra). eapply Rle_trans; [exact X1|].
    rewrite <- (b64_ints 1073742848%Z) by reflexivity. apply (dl_mono _ _ double_like_b64). apply Rle_trans with (10 ^ 10); [lra|]. apply Rle_pow; [lra|lia]. }
  rewrite Eb in Eb1. injection Eb1 as <- <-.
  destruct (p_keys mn mx) as (K0 & K1).
  { intros i Hi. destruct (Hbox i Hi) as (-> & ->). rewrite !v_int. split; reflexivity. }
  exists C, C', (Z.of_nat (pt 0%nat 1%nat)), (Z.of_nat (pt' 0%nat 1%nat)), (Z.of_nat (pt' 1%nat 1%nat)).
  split; [exact EC|]. split; [apply Ap; lia|].
  split. { rewrite (Ac 0 1 1 1)%nat; [apply Ap; lia|lia|lia|lia|lia|]. intros i Hi. rewrite <- !centref_id by lia. unfold centref, tN. cbn [fold_up nth tconn Nat.add Nat.mul side_corner]. unfold idr. ring. }
  split; [rewrite conn_float; exact EC'|]. split; [apply Ap'; lia|]. split; [apply Ap'; lia|].
  intros Q. apply Nat2Z.inj in Q. apply Ac' in Q; [|lia|lia|lia|lia]. rewrite !Hk in Q by lia.
  rewrite (rkeyf_ext binary64 32 mn mx _ pc0) in Q by (intros i Hi; apply centre0, Hi). rewrite (rkeyf_ext binary64 32 mn mx (centref binary64 tN pX 1 1) pc1) in Q by (intros i Hi; apply centre1, Hi).
  rewrite K0, K1 in Q. discriminate Q.
Qed.
