(** Connectivity in rounded arithmetic: the main lemmas. *)
From Coq Require Import Reals List Arith ZArith Lra Lia Psatz Bool.
Import ListNotations.
Require Import Verif.Base Verif.RBase Verif.RSum Verif.Spec_Patch Verif.Model_Geom Verif.Proof_Geom Verif.Proof_Tri Verif.Model_Conn Verif.Spec_Quad Verif.Spec_High Verif.Proof_High Verif.Proof_High3
  Verif.Model_Refine Verif.Model_Ref Verif.Model_High Verif.Model_Full Verif.Spec_Full Verif.Proof_Full Verif.Proof_Full2 Verif.Proof_Full3 Verif.Spec_Float Verif.Float_Base Verif.Model_FloatLagrange Verif.Model_FloatRefine Verif.Spec_FloatRefine
  Verif.Proof_FloatRefine Verif.Proof_FloatRefine2 Verif.Proof_FloatRefine3 Verif.Proof_FloatRefine4 Verif.Proof_FloatRefine5 Verif.Model_FloatPatch Verif.Spec_FloatPatch Verif.Proof_FloatPatch Verif.Proof_FloatPatch2 Verif.Proof_FloatPatch3 Verif.Model_Patch.
Local Open Scope nat_scope.

Lemma connectivityf_id G ne gauss m : build_connectivityf idr G ne gauss m = build_connectivity G ne gauss m.
Proof.
  rewrite conn_float, conn_exact. assert (E : face_keysf idr m = face_keys m) by (apply FunctionalExtensionality.functional_extensionality; intros; apply face_keysf_id). rewrite E. reflexivity.
Qed.
Lemma refine_meshf_id p m : refine_meshf idr p m = refine_mesh p m.
Proof. unfold refine_meshf, refine_mesh. rewrite refine_cellsf_id. destruct (refine_cells p m); [|reflexivity]. cbn [bind]. rewrite connectivityf_id. reflexivity. Qed.

Section P.
Context (u : R) (rnd : R -> R).
Hypothesis HD : double_like u rnd.

Theorem connectivityf_ok G ne gauss m N X GN d nc : cdescribes m N X -> cm_cells m = S nc -> corner_spacing N X nc d -> (0 < d <= 10 ^ 64)%R ->
  (forall e l, e < ne -> l < G -> getu gauss (e * G + l) = Ok (GN e l) /\ GN e l < cm_nodes m) -> ne <= S nc ->
  (exists c c', c < S nc /\ c' < S nc /\ c <> c' /\ touch 8 N c c') ->
  exists C pt, build_connectivityf rnd G ne gauss m = Ok C /\
    around_nodes (cn_node_cells C) (cm_nodes m) (S nc) 8 N /\
    corners_right (cn_corners C) (cm_nodes m) (S nc) N /\
    neighbours_right (num_cells_in_cell (cn_cell_cells C)) (cells_in_cell (cn_cell_cells C)) (S nc) 8 N /\
    patches_right (cn_patches C) (S nc) N pt /\
    (forall c t c' t', c < S nc -> t < 6 -> c' < S nc -> t' < 6 ->
       (forall i, i < 3 -> centref rnd N X c t i = centref rnd N X c' t' i) -> pt c t = pt c' t') /\
    around_nodes (cn_node_elems C) (cm_nodes m) ne G GN /\
    (forall e l, e < ne -> l < G -> getu (cn_nodes_in_elem C) (e * G + l) = Ok (GN e l)) /\
    neighbours_right (num_elems_in_elem (cn_elem_elems C)) (elems_in_elem (cn_elem_elems C)) ne G GN.
Proof.
  intros HM Ec HL Hd HG Hne HS. destruct (face_keysf_ok u rnd HD m N X d nc HM Ec HL Hd) as (ks & mx & mn & t & Ek & Lk & _ & _ & _ & Hk).
  destruct (conn_from_ok (face_keysf rnd m) ks G ne gauss m N X GN nc HM Ec Ek Lk HG Hne HS) as (C & pt & EC & A1 & A2 & A3 & A4 & A5 & A6 & A7 & A8).
  exists C, pt. rewrite conn_float. split; [exact EC|]. repeat (split; [assumption|]). split; [|auto].
  intros c s c' s' Hc Hs Hc' Hs' Q. apply A5; try assumption. rewrite !Hk by assumption. do 2 f_equal. apply rkeyf_ext. exact Q.
Qed.

Lemma nth_ext_list (a b : list nat) n : length a = n -> length b = n -> (forall q, q < n -> nth q a 0 = nth q b 0) -> a = b.
Proof. intros La Lb H. apply (nth_ext a b 0 0); [congruence|]. intros q Hq. apply H. lia. Qed.

Theorem same_keys m N X d nc lo hi M L : let delta := (d / 3)%R in cdescribes m N X -> cm_cells m = S nc -> corner_spacing N X nc d -> (0 < d <= 10 ^ 64)%R -> (INR 12 * u < 1)%R ->
  is_box (cm_nodes m) X lo hi -> (forall i, i < 3 -> (hi i - lo i <= L)%R) -> (forall n i, n < cm_nodes m -> i < 3 -> (Rabs (X n i) <= M)%R) -> (M <= 10 ^ 63)%R ->
  (forall c s, c < S nc -> s < 6 -> clear (key_err u M L delta) (real_key delta lo hi (face_centre N X c s))) ->
  face_keysf rnd m (flatten 8 (cm_cells m) N) = face_keys m (flatten 8 (cm_cells m) N).
Proof.
  intros delta HM Ec HL Hd H12 HB HLL HX M63 Hcl. rewrite <- face_keysf_id.
  destruct (face_keysf_ok u rnd HD m N X d nc HM Ec HL Hd) as (ks & mx & mn & t & Ek & Lk & Eb & Wt & _ & Hk).
  destruct (face_keysf_ok 0 idr id_double_like m N X d nc HM Ec HL Hd) as (ks' & mx' & mn' & t' & Ek' & Lk' & Eb' & Wt' & _ & Hk').
  rewrite Ek, Ek'. f_equal. apply (nth_ext_list _ _ (S nc * 6) Lk Lk'). intros q Hq.
  assert (Eq : q = q / 6 * 6 + q mod 6) by (rewrite (Nat.mul_comm (q / 6)); apply Nat.div_mod; lia). assert (Hc : q / 6 < S nc) by (apply Nat.div_lt_upper_bound; lia). assert (Hs : q mod 6 < 6) by (apply Nat.mod_upper_bound; lia).
  rewrite Eq. set (c := q / 6) in *. set (s := q mod 6) in *. rewrite Hk, Hk' by assumption. apply within0 in Wt'. subst t'. rewrite Rmult_1_r. f_equal.
  destruct (box64 u rnd HD m N X lo hi M HM HB HX M63 rnd (or_introl HD)) as (mx1 & mn1 & Q1 & B1). rewrite Eb in Q1. injection Q1 as <- <-.
  destruct (box64 u rnd HD m N X lo hi M HM HB HX M63 idr (or_intror eq_refl)) as (mx2 & mn2 & Q2 & B2). rewrite Eb' in Q2. injection Q2 as <- <-.
  assert (Ext : forall r dl a b a' b' c, (forall i, i < 3 -> a i = a' i) -> (forall i, i < 3 -> b i = b' i) -> rkeyf r dl a b c = rkeyf r dl a' b' c).
  { intros r dl a b a' b' cc Ha Hb. unfold rkeyf. cbv zeta. rewrite !(Ha 0), !(Ha 1), (Ha 2), (Hb 0), (Hb 1) by lia. reflexivity. }
  rewrite (Ext rnd _ mn mx lo hi) by (intros i Hi; apply B1; exact Hi). rewrite (Ext idr _ mn' mx' lo hi) by (intros i Hi; apply B2; exact Hi).
  rewrite (rkeyf_ext idr _ lo hi _ (face_centre N X c s)) by (intros i Hi; apply centref_id; exact Hs). rewrite rkeyf_id.
  assert (Hn : forall l, l < 8 -> N c l < cm_nodes m) by (intros l Hl; apply (proj1 HM); [lia|exact Hl]).
  assert (H0 : N c 0 < cm_nodes m) by (apply Hn; lia).
  assert (Hlh : forall i, i < 3 -> (lo i <= hi i)%R) by (intros i Hi; destruct (HB i Hi) as (K & _); specialize (K _ H0); lra).
  assert (Hdd : (0 < delta)%R) by (unfold delta; lra). assert (Pt := within_pos u (dl_u1 u rnd HD) _ _ Wt).
  assert (H5 : (INR 5 * u < 1)%R) by (assert (Hu := dl_u u rnd HD); cbn [INR] in *; lra).
  fold delta. apply (trunc_clear0 _ _ (key_err u M L delta)).
  - apply real_key_nonneg; assumption.
  - apply (rkeyf_nonneg u rnd HD); [apply Rmult_lt_0_compat; assumption|exact Hlh].
  - apply (rkeyf_err u rnd HD); try assumption.
    + specialize (HX _ 0 H0 ltac:(lia)). assert (Z := Rabs_pos (X (N c 0) 0)). lra.
    + specialize (HLL 0 ltac:(lia)). specialize (Hlh 0 ltac:(lia)). lra.
    + intros i Hi. split; [apply centre_between; [exact Hs|]; intros l Hl; apply (HB i Hi), Hn, Hl|]. split; [apply HLL, Hi|].
      apply (centref_err u rnd HD); [exact Hs|exact H5|]. intros l Hl. apply HX; [apply Hn, Hl|exact Hi].
  - apply Hcl; assumption.
Qed.
Theorem same_connectivity G ne gauss m N X d nc lo hi M L : let delta := (d / 3)%R in cdescribes m N X -> cm_cells m = S nc -> corner_spacing N X nc d -> (0 < d <= 10 ^ 64)%R -> (INR 12 * u < 1)%R ->
  is_box (cm_nodes m) X lo hi -> (forall i, i < 3 -> (hi i - lo i <= L)%R) -> (forall n i, n < cm_nodes m -> i < 3 -> (Rabs (X n i) <= M)%R) -> (M <= 10 ^ 63)%R ->
  (forall c s, c < S nc -> s < 6 -> clear (key_err u M L delta) (real_key delta lo hi (face_centre N X c s))) ->
  build_connectivityf rnd G ne gauss m = build_connectivity G ne gauss m.
Proof.
  intros delta HM Ec HL Hd H12 HB HLL HX M63 Hcl. assert (Q := same_keys m N X d nc lo hi M L HM Ec HL Hd H12 HB HLL HX M63 Hcl).
  rewrite conn_float, conn_exact. unfold conn_from. cbv zeta.
  rewrite (read_flat 8 (cm_cells m) (cm_conn m) N) by (intros c l Hc Hl; apply (proj1 HM); assumption). cbn [bind].
  destruct (build_node_cell 8 _ _ _) as [a|]; [|reflexivity]. cbn [bind]. destruct (build_corner 8 _ _ _ a) as [b|]; [|reflexivity]. cbn [bind].
  destruct (build_cell_cell 8 _ _ a) as [c|]; [|reflexivity]. cbn [bind]. rewrite Q. reflexivity.
Qed.
End P.

(** the smallest distance exists *)
Lemma spacing_exists N X c : (forall a b, a < 8 -> b < 8 -> a <> b -> exists i, i < 3 /\ X (N c a) i <> X (N c b) i) -> (forall l i, l < 8 -> i < 3 -> (Rabs (X (N c l) i) <= 10 ^ 63)%R) ->
  exists d, corner_spacing N X c d /\ (0 < d <= 10 ^ 64)%R.
Proof.
  intros Hne HX.
  set (dist := fun a b : nat => sqrt ((X (N c a) 0%nat - X (N c b) 0%nat) ^ 2 + (X (N c a) 1%nat - X (N c b) 1%nat) ^ 2 + (X (N c a) 2%nat - X (N c b) 2%nat) ^ 2)%R).
  set (f := fun q => let a := q / 8 in let b := q mod 8 in if Nat.eqb a b then dist 0 1 else dist a b).
  destruct (exists_min 64 f ltac:(lia)) as (q & Hq & Qm).
  assert (Hf : forall q, q < 64 -> exists a b, a < 8 /\ b < 8 /\ a <> b /\ f q = dist a b).
  { intros x Hx. unfold f. cbv zeta. assert (x / 8 < 8) by (apply Nat.div_lt_upper_bound; lia). assert (x mod 8 < 8) by (apply Nat.mod_upper_bound; lia).
    destruct (Nat.eqb_spec (x / 8) (x mod 8)); [exists 0, 1; repeat split; lia|exists (x / 8), (x mod 8); auto]. }
  assert (Pos : forall a b, a < 8 -> b < 8 -> a <> b -> (0 < dist a b)%R).
  { intros a b Ha Hb Ne. destruct (Hne a b Ha Hb Ne) as (i & Hi & D). unfold dist. apply sqrt_lt_R0.
    assert (S : forall x y : R, (0 <= (x - y) ^ 2)%R) by (intros; apply pow2_ge_0). assert (S0 := S (X (N c a) 0) (X (N c b) 0)). assert (S1 := S (X (N c a) 1) (X (N c b) 1)). assert (S2 := S (X (N c a) 2) (X (N c b) 2)).
    assert (Sp : forall x y : R, x <> y -> (0 < (x - y) ^ 2)%R) by (intros x y Hxy; assert (x - y <> 0)%R by lra; nra).
    assert (D' := Sp _ _ D). destruct i as [|[|[|i]]]; [| | |lia]; lra. }
  exists (f q). destruct (Hf q Hq) as (a & b & Ha & Hb & Ne & E). split; [split|].
  - intros x y Hx Hy Nxy. assert (L : x * 8 + y < 64) by lia. specialize (Qm (x * 8 + y) L). unfold f at 2 in Qm. cbv zeta in Qm.
    rewrite Nat.div_add_l, Nat.div_small, Nat.add_0_r in Qm by lia. rewrite (Nat.add_comm (x * 8)), Nat.mod_add, Nat.mod_small in Qm by lia.
    destruct (Nat.eqb_spec x y); [lia|]. exact Qm.
  - exists a, b. repeat (split; [assumption|]). exact E.
  - rewrite E. split; [apply Pos; assumption|]. unfold dist.
    assert (P63 : (0 < 10 ^ 63)%R) by (apply pow_lt; lra). assert (E64 : (10 ^ 64 = 10 * 10 ^ 63)%R) by reflexivity. rewrite E64.
    assert (H0 := HX a 0 Ha ltac:(lia)). assert (H1 := HX a 1 Ha ltac:(lia)). assert (H2 := HX a 2 Ha ltac:(lia)). assert (K0 := HX b 0 Hb ltac:(lia)). assert (K1 := HX b 1 Hb ltac:(lia)). assert (K2 := HX b 2 Hb ltac:(lia)).
    clear E64 HX Hne Qm Hf Pos. set (v := (10 ^ 63)%R) in *. clearbody v. apply abs_le in H0, H1, H2, K0, K1, K2.
    rewrite <- (sqrt_square (10 * v)) by lra. apply sqrt_le_1_alt.
    assert (Sq : forall x y : R, (- v <= x <= v)%R -> (- v <= y <= v)%R -> ((x - y) ^ 2 <= 4 * (v * v))%R).
    { intros x y Hx Hy. assert (0 <= (2 * v - (x - y)) * (2 * v + (x - y)))%R by (apply Rmult_le_pos; lra). nra. }
    assert (S0 := Sq _ _ H0 K0). assert (S1 := Sq _ _ H1 K1). assert (S2 := Sq _ _ H2 K2). nra.
Qed.
