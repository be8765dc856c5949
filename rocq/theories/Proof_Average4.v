(** generate_bcs of examples/average (C62). *)
From Coq Require Import Reals List Arith ZArith Lra Lia Sorted Bool.
Import ListNotations.
Require Import Verif.Base Verif.NatSum Verif.RBase Verif.RSum Verif.Spec_Patch Verif.Spec_Full Verif.Model_Geom Verif.Model_Conn Verif.Model_Refine Verif.Model_Full
  Verif.Proof_Bdy Verif.Prop_Patch Verif.Proof_Full2 Verif.Prop_Full Verif.Model_Average Verif.Spec_Average Verif.Proof_Average Verif.Model_Patch.
Local Open Scope nat_scope.

Lemma iter_ext_in {A S} (l : list A) (f g : A -> S -> res S) s : (forall a s, In a l -> f a s = g a s) -> iter l f s = iter l g s.
Proof.
  revert s. induction l as [|a l IH]; intros s H; [reflexivity|]. cbn [iter]. rewrite H by (left; reflexivity). destruct (g a s); [|reflexivity]. cbn [bind]. apply IH. intros; apply H; right; assumption.
Qed.
Lemma tag_bdys_ext bdy chk chk' i b : (forall p, In p bdy -> chk p = chk' p) -> tag_bdys bdy chk i b = tag_bdys bdy chk' i b.
Proof.
  intros H. unfold tag_bdys. destruct (_ =? _); [reflexivity|]. destruct (set (bs_start b) 0 (Some 0)) as [st0|]; [|reflexivity]. cbn [bind].
  destruct (getu st0 i) as [st|]; [|reflexivity]. cbn [bind]. erewrite iter_ext_in; [reflexivity|]. intros p (lst, c) Hp. cbn beta. rewrite (H p Hp). reflexivity.
Qed.
Lemma read_all_some B : read_all (length (map Some B)) (map Some B) = Ok B.
Proof.
  rewrite (read_all_ok _ _ (fun q => nth q B 0)).
  - f_equal. rewrite map_length. apply nth_ext with (d := 0) (d' := 0).
    + rewrite map_length, seq_length. reflexivity.
    + intros q Hq. rewrite map_length, seq_length in Hq. rewrite (nth_indep _ 0 (nth 0 B 0)) by (rewrite map_length, seq_length; exact Hq).
      rewrite (map_nth (fun q => nth q B 0)), seq_nth by exact Hq. reflexivity.
  - intros q Hq. rewrite map_length in Hq. unfold getu. rewrite nth_error_map. rewrite (nth_error_nth' B 0 Hq). reflexivity.
Qed.

Lemma patch_node_ok P p k n : node_in_patch P p k = Ok (Z.of_nat n) -> patch_node P p k = Ok n.
Proof. intros E. unfold patch_node. rewrite E. cbn [bind]. destruct (Z.ltb_spec (Z.of_nat n) 0); [lia|]. rewrite Nat2Z.id. reflexivity. Qed.

Lemma corner_mean N X c s d : s < 6 -> (rsum 4 (fun k => X (N c (side_corner s k)) d / 4) = face_centre N X c s d)%R.
Proof. intros Hs. unfold face_centre, side_mean. do 6 (destruct s as [|s]; [cbn; lra|]). exfalso; lia. Qed.

Lemma patch_coord_ok m P p N X c s d : cdescribes m N X -> c < cm_cells m -> s < 6 -> d < 3 ->
  (forall k, k < 4 -> node_in_patch P p k = Ok (Z.of_nat (N c (side_corner s k)))) -> patch_coord m P p d = Ok (face_centre N X c s d).
Proof.
  intros (HN & HX) Hc Hs Hd HP. unfold patch_coord. rewrite <- (corner_mean N X c s d Hs).
  rewrite <- (sum_loop 4 (fun k => do n <- patch_node P p k; do x <- cm_coord m n d; Ok (x / 4)%R)).
  - apply loop_ext. intros k a Hk. rewrite (patch_node_ok _ _ _ _ (HP k Hk)). cbn [bind]. rewrite HX by first [exact Hd|apply HN; [exact Hc|apply side_corner_lt; assumption]]. reflexivity.
  - intros k Hk. rewrite (patch_node_ok _ _ _ _ (HP k Hk)). cbn [bind]. rewrite HX by first [exact Hd|apply HN; [exact Hc|apply side_corner_lt; assumption]]. reflexivity.
Qed.

Lemma check_distance x tag v : check_bdy x tag v = true <-> tag <= 4 /\ (surface_distance tag v x <= / 10 ^ 8)%R.
Proof.
  assert (K : forall (a : R) t, t <= 4 -> ((if Rle_dec a (/ 10 ^ 8) then true else false) = true <-> t <= 4 /\ (a <= / 10 ^ 8)%R)).
  { intros a t Ht. destruct (Rle_dec a (/ 10 ^ 8)); split; [auto|reflexivity|discriminate|intros (_ & A); contradiction]. }
  unfold check_bdy, surface_distance, near. do 5 (destruct tag as [|tag]; [apply K; lia|]). split; [discriminate|lia].
Qed.
Lemma check_bdy_ext x y tag v : (forall d, d < 3 -> x d = y d) -> check_bdy x tag v = check_bdy y tag v.
Proof. intros H. unfold check_bdy. rewrite !(H 0), !(H 1), !(H 2) by lia. reflexivity. Qed.

Lemma generate_bcs_ok m P bcs N X pt : cdescribes m N X -> patches_right P (cm_cells m) N pt -> bcs <> [] ->
  exists b L Q, generate_bcs m P bcs = Ok b /\
    forall s tag v, nth_error bcs s = Some (tag, v) ->
      presents (num_bdy_patches_in_set b s) (bdy_patches_in_set b s) (L s) /\ patch_corners P (cm_nodes m) (L s) Q /\
      (forall n, on_patches (L s) Q n <-> near_surface N X (cm_cells m) pt tag v n).
Proof.
  intros HM (_ & _ & HP & B & EB & _ & HBlt & HB) Hne. destruct HM as (HN & HX) eqn:EM. clear EM.
  assert (HS : forall p, p < pt_num P -> exists c s, c < cm_cells m /\ s < 6 /\ pt c s = p /\ (forall k, k < 4 -> node_in_patch P p k = Ok (Z.of_nat (N c (side_corner s k))))).
  { intros p Hp. destruct (HP p Hp) as (c & s & c' & s' & Hc & Hs & _ & _ & E & _ & _ & _ & _ & _ & _ & R). exists c, s. auto. }
  set (Q := fun p k => match patch_node P p k with Ok n => n | Err _ => 0 end).
  set (cen := fun p d => match patch_coord m P p d with Ok x => x | Err _ => 0%R end).
  assert (HC : forall p, p < pt_num P -> forall c s, c < cm_cells m -> s < 6 -> (forall k, k < 4 -> node_in_patch P p k = Ok (Z.of_nat (N c (side_corner s k)))) ->
     forall d, d < 3 -> patch_coord m P p d = Ok (face_centre N X c s d)).
  { intros p Hp c s Hc Hs R d Hd. apply (patch_coord_ok m P p N X); assumption. }
  set (pr := fun i p => let tv := nth i bcs (0, 0%R) in check_bdy (cen p) (fst tv) (snd tv)).
  assert (HK : forall i p, p < pt_num P -> let tv := nth i bcs (0, 0%R) in check_patch m P (fst tv) (snd tv) p = Ok (pr i p)).
  { intros i p Hp. cbv zeta. destruct (HS p Hp) as (c & s & Hc & Hs & _ & R). unfold check_patch, pr. rewrite !(HC p Hp c s Hc Hs R) by lia. cbn [bind]. f_equal. apply check_bdy_ext.
    intros d Hd. unfold cen. rewrite (HC p Hp c s Hc Hs R d Hd). destruct d as [|[|[|d]]]; [reflexivity..|lia]. }
  assert (Lp : 0 < length bcs) by (destruct bcs; [contradiction|cbn; lia]).
  destruct (tag_all (length bcs) B pr Lp (length bcs) ltac:(lia)) as (b & Eb & Hb).
  exists b, (fun s => filter (pr s) B), Q. split.
  - unfold generate_bcs. rewrite EB. cbn [bind]. rewrite read_all_some. cbn [bind]. rewrite <- Eb. apply loop_ext. intros i st Hi.
    unfold get. rewrite (nth_error_nth' bcs (0, 0%R) Hi). cbn [bind]. apply tag_bdys_ext. intros p Hp. apply HK, HBlt, Hp.
  - intros s tag v Es. assert (Hs : s < length bcs) by (apply nth_error_Some; congruence). assert (Et : nth s bcs (0, 0%R) = (tag, v)) by (apply nth_error_nth; exact Es).
    split; [destruct (Hb s Hs) as (B1 & B2); split; assumption|]. split.
    + intros p k Hp Hk. apply filter_In in Hp. destruct Hp as (Hp & _). destruct (HS p (HBlt p Hp)) as (c & t & Hc & Ht & _ & R). unfold Q. rewrite (patch_node_ok _ _ _ _ (R k Hk)). rewrite (R k Hk). split; [reflexivity|].
      apply HN; [exact Hc|]. apply side_corner_lt; assumption.
    + intros n. split.
      * intros (p & k & Hp & Hk & <-). apply filter_In in Hp. destruct Hp as (Hp & Hpr). destruct (HS p (HBlt p Hp)) as (c & t & Hc & Ht & Ept & R).
        unfold Q. rewrite (patch_node_ok _ _ _ _ (R k Hk)). exists c, t, (side_corner t k). split.
        { split; [exact Hc|]. split; [exact Ht|]. rewrite <- Ept in Hp. exact (proj1 (HB c t Hc Ht) Hp). }
        unfold pr in Hpr. rewrite Et in Hpr. cbn [fst snd] in Hpr. rewrite (check_bdy_ext _ (face_centre N X c t)) in Hpr by (intros d Hd; unfold cen; rewrite (HC p (HBlt p Hp) c t Hc Ht R d Hd); reflexivity).
        apply check_distance in Hpr. destruct Hpr as (T4 & D). split; [exact T4|]. split; [exact D|]. split; [|reflexivity].
        apply (C61_side_corners t Ht). exists k. auto.
      * intros (c & t & l & (Hc & Ht & U) & T4 & D & Ol & <-). assert (Hp : In (pt c t) B) by (apply (HB c t Hc Ht); exact U).
        destruct (HS _ (HBlt _ Hp)) as (c' & t' & Hc' & Ht' & Ept & R). destruct (U c' t' Hc' Ht' Ept) as (-> & ->).
        destruct (proj1 (proj1 (C61_side_corners t Ht) l) Ol) as (k & Hk & ->). exists (pt c t), k. split.
        { apply filter_In. split; [exact Hp|]. unfold pr. rewrite Et. cbn [fst snd]. rewrite (check_bdy_ext _ (face_centre N X c t)) by (intros d Hd; unfold cen; rewrite (HC _ (HBlt _ Hp) c t Hc Ht R d Hd); reflexivity).
          apply check_distance. auto. }
        split; [exact Hk|]. unfold Q. rewrite (patch_node_ok _ _ _ _ (R k Hk)). reflexivity.
Qed.
