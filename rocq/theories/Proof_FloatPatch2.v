(** The face keys in rounded arithmetic. *)
From Coq Require Import Reals List Arith ZArith Lra Lia Bool FunctionalExtensionality.
Import ListNotations.
Require Import Verif.Base Verif.RBase Verif.RSum Verif.Spec_Patch Verif.Model_Geom Verif.Proof_Geom Verif.Proof_Tri
  Verif.Model_High Verif.Model_Full Verif.Spec_Full Verif.Proof_Full Verif.Proof_Full2 Verif.Spec_Float Verif.Float_Base Verif.Model_FloatLagrange Verif.Model_FloatRefine Verif.Spec_FloatRefine
  Verif.Proof_FloatRefine Verif.Proof_FloatRefine3 Verif.Proof_FloatRefine4 Verif.Model_FloatPatch Verif.Spec_FloatPatch Verif.Proof_FloatPatch Verif.Model_Patch.
Local Open Scope nat_scope.

(** the computed centre of side s of cell c *)
Definition centref (rnd : R -> R) (N : nat -> nat -> nat) (X : nat -> nat -> R) (c s d : nat) : R :=
  fold_up 4 (fun k a => rnd (a + rnd (X (N c (side_corner s k)) d / 4)))%R 0%R.
(** the computed real key *)
Definition rkeyf (rnd : R -> R) (delta : R) (mn mx c : nat -> R) : R :=
  let q i := Rmax (rnd (/ 10 ^ 16))%R (rnd (rnd (rnd (c i - mn i) + rnd (/ 10 ^ 12)) / delta))%R in
  let n i := rnd (rnd (rnd (mx i - mn i) + rnd (/ 10 ^ 12)) / delta)%R in
  rnd (rnd (q 0%nat + rnd (q 1%nat * n 0%nat)) + rnd (rnd (q 2%nat * n 0%nat) * n 1%nat))%R.

Lemma rkeyf_ext rnd delta mn mx c c' : (forall d, d < 3 -> c d = c' d) -> rkeyf rnd delta mn mx c = rkeyf rnd delta mn mx c'.
Proof. intros H. unfold rkeyf. cbv zeta. rewrite (H 0), (H 1), (H 2) by lia. reflexivity. Qed.
Lemma centref_ext rnd N X c s c' s' d : (forall k, k < 4 -> X (N c (side_corner s k)) d = X (N c' (side_corner s' k)) d) -> centref rnd N X c s d = centref rnd N X c' s' d.
Proof. intros H. unfold centref. cbn [fold_up]. rewrite (H 0), (H 1), (H 2), (H 3) by lia. reflexivity. Qed.

Section P.
Context (u : R) (rnd : R -> R).
Hypothesis HD : double_like u rnd.
Let U1 := dl_u1 u rnd HD.
Let Hr := dl_r u rnd HD.
Let rw := rnd_w u U1 rnd Hr.

Lemma side_centref_ok m N X c s : cdescribes m N X -> c < cm_cells m -> s < 6 ->
  exists cen, side_centref rnd m (flatten 8 (cm_cells m) N) c s = Ok cen /\ forall d, d < 3 -> cen d = centref rnd N X c s d.
Proof.
  intros (HN & HX) Hc Hs. unfold side_centref.
  assert (HL : forall k, k < 4 -> node_in_patch_in_cell (flatten 8 (cm_cells m) N) c s k = Ok (N c (side_corner s k)) /\ side_corner s k < 8).
  { intros k Hk. assert (Q := side_corner_lt s k Hs Hk). unfold node_in_patch_in_cell. rewrite table_corner by assumption. cbn [bind]. split; [|exact Q]. unfold get. rewrite flatten_at by assumption. reflexivity. }
  edestruct (loop_inv (fun n (a : nat -> R) => forall d, d < 3 -> a d = fold_up n (fun k a => rnd (a + rnd (X (N c (side_corner s k)) d / 4)))%R 0%R) 4) as (a & E & Ha).
  3:{ exists a. split; [exact E|]. exact Ha. }
  - intros d Hd. reflexivity.
  - intros k a Hk Ha. destruct (HL k Hk) as (-> & Hl). cbn [bind].
    destruct (HN c (side_corner s k) Hc Hl) as (_ & Hn).
    edestruct (loop_inv (fun n (b : nat -> R) => forall d, d < 3 -> b d = if d <? n then rnd (a d + rnd (X (N c (side_corner s k)) d / 4))%R else a d) 3) as (b & Eb & Hb).
    3:{ exists b. split; [exact Eb|]. intros d Hd. rewrite Hb by exact Hd. destruct (Nat.ltb_spec d 3); [|lia]. cbn [fold_up]. rewrite Ha by exact Hd. reflexivity. }
    + intros; reflexivity.
    + intros i b Hi Hb. cbn beta. rewrite HX by assumption. cbn [bind]. eexists. split; [reflexivity|]. intros d Hd. unfold fset. destruct (Nat.eqb_spec d i) as [->|].
      * rewrite Hb by exact Hd. destruct (Nat.ltb_spec i i), (Nat.ltb_spec i (S i)); try lia. reflexivity.
      * rewrite Hb by exact Hd. destruct (Nat.ltb_spec d i), (Nat.ltb_spec d (S i)); try lia; reflexivity.
Qed.

Lemma patch_last_distf_v m N X ne : cdescribes m N X -> cm_cells m = S ne ->
  exists v, (forall l d, l < 8 -> d < 3 -> v l d = X (N ne l) d) /\ patch_last_distf rnd m = Ok (cell_dist_minf rnd (node_distf rnd v 0 1) v).
Proof.
  intros HM Ec.
  unfold patch_last_distf. rewrite Ec.
    destruct (loop_inv (fun k (d : option R) => 0 < k -> exists v, (forall l d, l < 8 -> d < 3 -> v l d = X (N (k - 1) l) d) /\ d = Some (cell_dist_minf rnd (node_distf rnd v 0 1) v)) (S ne)
      (fun c _ => do v <- cell_verts m c; Ok (Some (cell_dist_minf rnd (node_distf rnd v 0 1) v))) None) as (o & E & H).
    - lia.
    - intros c o Hc _. destruct (cell_verts_ok m N X c HM ltac:(lia)) as (v & -> & Hv). cbn [bind]. eexists. split; [reflexivity|]. intros _. exists v. split; [|reflexivity]. replace (S c - 1) with c by lia. exact Hv.
    - rewrite E. cbn [bind]. destruct (H ltac:(lia)) as (v & Hv & ->). exists v. replace (S ne - 1) with ne in Hv by lia. auto.
Qed.
Lemma patch_last_distf_ok m N X ne d : cdescribes m N X -> cm_cells m = S ne -> corner_spacing N X ne d ->
  exists t, within u 6 t /\ patch_last_distf rnd m = Ok (d * t)%R.
Proof.
  intros HM Ec HL. assert (G := patch_last_distf_v m N X ne HM Ec).
  destruct G as (v & Hv & ->). destruct (node_distf_within u rnd HD v 0 1) as (t0 & W0 & ->).
  destruct (cell_dist_within u rnd HD v (node_dist v 0 1) t0 (node_dist_nonneg v 0 1) W0) as (t & W & ->). exists t. split; [exact W|]. do 2 f_equal.
  assert (L : least_dist v (cell_dist_min (node_dist v 0 1) v)).
  { apply cell_dist_min_spec. exists 0, 1. repeat (split; [lia|]). apply Rle_refl. }
  apply (least_dist_ext _ _ _ Hv) in L. exact (least_dist_unique (fun l d => X (N ne l) d) _ _ L HL).
Qed.

Lemma patch_keyf_ok delta mn mx c : delta <> 0%R -> patch_keyf rnd delta mn mx c = Ok (trunc (rkeyf rnd delta mn mx c)).
Proof. intros H. unfold patch_keyf. cbv zeta. rewrite !(rdivf_ok rnd) by exact H. cbn [bind]. reflexivity. Qed.

Lemma rnd_nonneg x : (0 <= x)%R -> (0 <= rnd x)%R.
Proof. apply (rnd_sign u U1 rnd Hr). Qed.
Lemma max_nonneg a b : (0 <= a)%R -> (0 <= Rmax a b)%R.
Proof. intros H. eapply Rle_trans; [exact H|apply Rmax_l]. Qed.
Lemma bins_nonneg delta a b : (0 < delta)%R -> (b <= a)%R -> (0 <= rnd (rnd (rnd (a - b) + rnd (/ 10 ^ 12)) / delta))%R.
Proof.
  intros Hd H. apply rnd_nonneg. apply Rmult_le_pos; [|left; apply Rinv_0_lt_compat; exact Hd]. apply rnd_nonneg. apply Rplus_le_le_0_compat; apply rnd_nonneg; [lra|]. left. apply inv_pow_pos.
Qed.
Lemma rkeyf_nonneg delta mn mx c : (0 < delta)%R -> (forall i, i < 3 -> (mn i <= mx i)%R) -> (0 <= rkeyf rnd delta mn mx c)%R.
Proof.
  intros Hd Hm. unfold rkeyf. cbv zeta. assert (N0 := bins_nonneg delta _ _ Hd (Hm 0 ltac:(lia))). assert (N1 := bins_nonneg delta _ _ Hd (Hm 1 ltac:(lia))).
  assert (F : (0 <= rnd (/ 10 ^ 16))%R) by (apply rnd_nonneg; left; apply inv_pow_pos).
  apply rnd_nonneg, Rplus_le_le_0_compat; apply rnd_nonneg.
  - apply Rplus_le_le_0_compat; [apply max_nonneg, F|]. apply rnd_nonneg, Rmult_le_pos; [apply max_nonneg, F|exact N0].
  - apply Rmult_le_pos; [|exact N1]. apply rnd_nonneg, Rmult_le_pos; [apply max_nonneg, F|exact N0].
Qed.

Lemma face_keysf_full m N X d nc : cdescribes m N X -> cm_cells m = S nc -> corner_spacing N X nc d -> (0 < d <= 10 ^ 64)%R ->
  exists ks mx mn t, face_keysf rnd m (flatten 8 (cm_cells m) N) = Ok ks /\ length ks = S nc * 6 /\
    mesh_box (rnd (10 ^ 64)) m = Ok (mx, mn) /\ within u 7 t /\ (forall n i, n < cm_nodes m -> i < 3 -> (mn i <= X n i <= mx i)%R) /\
    (exists d', patch_last_distf rnd m = Ok d' /\ d / 3 * t = rnd (Rmin (rnd (10 ^ 64)) d' / 3))%R /\
    forall c s, c < S nc -> s < 6 -> nth (c * 6 + s) ks 0 = Z.to_nat (trunc (rkeyf rnd (d / 3 * t) mn mx (centref rnd N X c s))).
Proof.
  intros HM Ec HL Hd. unfold face_keysf.
  destruct (mesh_box_ok (rnd (10 ^ 64)) m N X HM) as (mx & mn & -> & Hb & _ & _). cbn [bind].
  destruct (patch_last_distf_ok m N X nc d HM Ec HL) as (t0 & W0 & Ed'). rewrite Ed'. cbn [bind].
  set (dm := rnd (Rmin (rnd (10 ^ 64)) (d * t0) / 3)). assert (Edm : dm = rnd (Rmin (rnd (10 ^ 64)) (d * t0) / 3)) by reflexivity. assert (Edk := Edm). clearbody dm.
  destruct (rw (10 ^ 64)) as (t1 & W1 & E1). assert (E1k := E1). rewrite E1 in Edm |- *. clear E1.
  assert (P64 : (0 <= 10 ^ 64)%R) by (apply pow_le; lra).
  destruct (min_within u rnd HD 6 (10 ^ 64) d t1 t0 P64 ltac:(lra) (within_le u U1 1 6 t1 ltac:(lia) W1) W0) as (t2 & W2 & E2). rewrite E2 in Edm |- *. clear E2. rewrite Rmin_right in Edm |- * by apply Hd.
  rewrite (rdivf_ok rnd) by lra. cbn [bind]. destruct (rw (d * t2 / 3)) as (t3 & W3 & E3). rewrite E3 in Edm |- *. clear E3.
  replace (d * t2 / 3 * t3)%R with (d / 3 * (t2 * t3))%R in Edm |- * by field. set (t := (t2 * t3)%R). assert (W : within u 7 t) by (apply (within_mul u U1 6 1); assumption).
  assert (P := within_pos u U1 _ _ W). assert (Hdd : (0 < d / 3 * t)%R) by (apply Rmult_lt_0_compat; lra). set (delta := (d / 3 * t)%R) in *.
  rename Edm into DM0. assert (DM : delta = dm) by (symmetry; exact DM0). 
  assert (Hmm : forall i, i < 3 -> (mn i <= mx i)%R).
  { intros i Hi. destruct HM as (HN & _). destruct (HN 0 0 ltac:(lia) ltac:(lia)) as (_ & B). specialize (Hb _ i B Hi). lra. }
  rewrite Ec.
  edestruct (loop_inv (fun n (ks : list nat) => length ks = n * 6 /\ forall c s, c < n -> s < 6 -> nth (c * 6 + s) ks 0 = Z.to_nat (trunc (rkeyf rnd delta mn mx (centref rnd N X c s)))) (S nc)) as (ks & E & L & H).
  3:{ exists ks, mx, mn, t. split; [exact E|]. repeat (split; [assumption || reflexivity|]). split; [|exact H]. exists (d * t0)%R. split; [reflexivity|]. rewrite <- ?E1k, <- Edk. exact DM. }
  - split; [reflexivity|intros; lia].
  - intros c ks Hc (L & H). cbn beta.
    edestruct (loop_inv (fun n (ks : list nat) => length ks = c * 6 + n /\ forall c' s, s < 6 -> c' * 6 + s < c * 6 + n -> nth (c' * 6 + s) ks 0 = Z.to_nat (trunc (rkeyf rnd delta mn mx (centref rnd N X c' s)))) 6) as (ks' & E' & L' & H').
    3:{ exists ks'. split; [exact E'|]. split; [lia|]. intros c' s Hc' Hs. apply H'; lia. }
    + split; [lia|]. intros c' s Hs B. apply H; lia.
    + intros s ks' Hs (L' & H'). cbn beta. rewrite <- Ec. destruct (side_centref_ok m N X c s HM ltac:(lia) Hs) as (cen & -> & Hcen). cbn [bind].
      rewrite patch_keyf_ok by lra. cbn [bind]. rewrite (rkeyf_ext rnd delta mn mx cen (centref rnd N X c s)) by exact Hcen.
      assert (Z0 := trunc_nonneg _ (rkeyf_nonneg delta mn mx (centref rnd N X c s) Hdd Hmm)). destruct (Z.ltb_spec (trunc (rkeyf rnd delta mn mx (centref rnd N X c s))) 0); [lia|].
      eexists. split; [reflexivity|]. rewrite app_length. split; [cbn [length]; lia|]. intros c' s' Hs' B.
      destruct (Nat.eq_dec (c' * 6 + s') (c * 6 + s)) as [Q|Q].
      * assert (c' = c) by lia. subst c'. assert (s' = s) by lia. subst s'. rewrite app_nth2 by lia. rewrite L', Nat.sub_diag. reflexivity.
      * rewrite app_nth1 by lia. apply H'; [exact Hs'|lia].
Qed.
Lemma face_keysf_ok m N X d nc : cdescribes m N X -> cm_cells m = S nc -> corner_spacing N X nc d -> (0 < d <= 10 ^ 64)%R ->
  exists ks mx mn t, face_keysf rnd m (flatten 8 (cm_cells m) N) = Ok ks /\ length ks = S nc * 6 /\
    mesh_box (rnd (10 ^ 64)) m = Ok (mx, mn) /\ within u 7 t /\ (forall n i, n < cm_nodes m -> i < 3 -> (mn i <= X n i <= mx i)%R) /\
    forall c s, c < S nc -> s < 6 -> nth (c * 6 + s) ks 0 = Z.to_nat (trunc (rkeyf rnd (d / 3 * t) mn mx (centref rnd N X c s))).
Proof. intros HM Ec HL Hd. destruct (face_keysf_full m N X d nc HM Ec HL Hd) as (ks & mx & mn & t & A & B & C & D & E & _ & F). exists ks, mx, mn, t. auto 8. Qed.
End P.
