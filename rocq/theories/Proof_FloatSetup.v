(** The setup of examples/average in rounded arithmetic: exact case, boundary sets. *)
From Coq Require Import Reals List Arith ZArith Lra Lia Sorted Bool.
Import ListNotations.
Require Import Verif.Base Verif.NatSum Verif.RBase Verif.RSum Verif.Spec_Patch Verif.Spec_Full Verif.Model_Geom Verif.Model_Conn Verif.Model_Refine Verif.Model_Full
  Verif.Proof_Bdy Verif.Prop_Patch Verif.Proof_Full2 Verif.Prop_Full Verif.Model_Average Verif.Spec_Average Verif.Proof_Average Verif.Proof_Average4
  Verif.Spec_Float Verif.Float_Base Verif.Spec_FloatRefine Verif.Model_FloatRefine Verif.Proof_FloatRefine Verif.Model_FloatPatch Verif.Spec_FloatPatch Verif.Proof_FloatPatch2 Verif.Proof_FloatPatch3 Verif.Proof_FloatPatch4
  Verif.Model_FloatAverage Verif.Prop_FloatAverage Verif.Proof_FloatRun2 Verif.Spec_FloatSetup Verif.Model_FloatSetup Verif.Model_Patch.
Local Open Scope nat_scope.

(** * without rounding *)
Notation idr := (fun x : R => x).
Lemma bind_ext1 {A B} (x : res A) (f g : A -> res B) : (forall a, f a = g a) -> bind x f = bind x g.
Proof. intros H. destruct x; cbn; [apply H|reflexivity]. Qed.
Lemma generate_bcsf_id m P bcs : generate_bcsf idr m P bcs = generate_bcs m P bcs.
Proof. reflexivity. Qed.
Lemma initialize_statef_id m fills mat : initialize_statef idr m fills mat = initialize_state m fills mat.
Proof. reflexivity. Qed.
Lemma init_connectivityf_id m : init_connectivityf idr m = init_connectivity m.
Proof.
  unfold init_connectivityf, init_connectivity. cbv zeta. destruct (_ =? _); [reflexivity|]. apply bind_ext1. intros nodes. apply bind_ext1. intros a. apply bind_ext1. intros b. apply bind_ext1. intros c.
  rewrite face_keysf_id. reflexivity.
Qed.
Lemma option_map_id (l : list (option R)) : map (option_map idr) l = l.
Proof. induction l as [|[x|] l IH]; cbn; [reflexivity|f_equal; exact IH|f_equal; exact IH]. Qed.
Lemma parse_meshf_id t : parse_meshf idr t = parse_mesh t.
Proof. unfold parse_meshf. destruct (parse_mesh t) as [m|]; [|reflexivity]. cbn [bind]. rewrite option_map_id. destruct m; reflexivity. Qed.
Lemma read_meshf_id p t : read_meshf idr p t = read_mesh p t.
Proof. unfold read_meshf, read_mesh. rewrite parse_meshf_id. apply bind_ext1. intros m. rewrite init_connectivityf_id. apply bind_ext1. intros _. rewrite refine_meshf_id. reflexivity. Qed.
Lemma setupf_id inp file : setupf idr inp file = setup inp file.
Proof. unfold setupf, setup. rewrite read_meshf_id. reflexivity. Qed.
Lemma averagef_id fmt inp file : averagef idr fmt inp file = average fmt inp file.
Proof. unfold averagef, average. rewrite setupf_id. apply bind_ext1. intros [[sv node] mat]. apply C80_exact. Qed.

(** * boundary sets *)
Section B.
Context (rnd : R -> R).

Lemma patch_coordf_ok m P p N X c s d : cdescribes m N X -> c < cm_cells m -> s < 6 -> d < 3 ->
  (forall k, k < 4 -> node_in_patch P p k = Ok (Z.of_nat (N c (side_corner s k)))) -> patch_coordf rnd m P p d = Ok (centref rnd N X c s d).
Proof.
  intros (HN & HX) Hc Hs Hd HP. unfold patch_coordf, centref.
  edestruct (loop_inv (fun n (a : R) => a = fold_up n (fun k a => rnd (a + rnd (X (N c (side_corner s k)) d / 4)))%R 0%R) 4) as (a & E & Ha).
  3:{ rewrite E, Ha. reflexivity. }
  - reflexivity.
  - intros k a Hk Ha. cbn beta. rewrite (patch_node_ok _ _ _ _ (HP k Hk)). cbn [bind]. rewrite HX by first [exact Hd|apply HN; [exact Hc|apply side_corner_lt; assumption]]. cbn [bind].
    eexists. split; [reflexivity|]. cbn [fold_up]. rewrite <- Ha. reflexivity.
Qed.

Lemma check_bdyf_ext x y tag v : (forall d, d < 3 -> x d = y d) -> check_bdyf rnd x tag v = check_bdyf rnd y tag v.
Proof. intros H. unfold check_bdyf. cbv zeta. rewrite !(H 0), !(H 1), !(H 2) by lia. reflexivity. Qed.

Lemma generate_bcsf_ok m P bcs N X pt : cdescribes m N X -> patches_right P (cm_cells m) N pt -> bcs <> [] ->
  exists b L Q, generate_bcsf rnd m P bcs = Ok b /\
    forall s tag v, nth_error bcs s = Some (tag, v) ->
      presents (num_bdy_patches_in_set b s) (bdy_patches_in_set b s) (L s) /\ patch_corners P (cm_nodes m) (L s) Q /\
      (forall n, on_patches (L s) Q n <-> exists c t l, boundary_side (cm_cells m) pt c t /\ check_bdyf rnd (centref rnd N X c t) tag v = true /\ on_side t l /\ N c l = n).
Proof.
  intros HM (_ & _ & HP & B & EB & _ & HBlt & HB) Hne. destruct HM as (HN & HX) eqn:EM. clear EM.
  assert (HS : forall p, p < pt_num P -> exists c s, c < cm_cells m /\ s < 6 /\ pt c s = p /\ (forall k, k < 4 -> node_in_patch P p k = Ok (Z.of_nat (N c (side_corner s k))))).
  { intros p Hp. destruct (HP p Hp) as (c & s & c' & s' & Hc & Hs & _ & _ & E & _ & _ & _ & _ & _ & _ & R). exists c, s. auto. }
  set (Q := fun p k => match patch_node P p k with Ok n => n | Err _ => 0 end).
  set (cen := fun p d => match patch_coordf rnd m P p d with Ok x => x | Err _ => 0%R end).
  assert (HC : forall p, p < pt_num P -> forall c s, c < cm_cells m -> s < 6 -> (forall k, k < 4 -> node_in_patch P p k = Ok (Z.of_nat (N c (side_corner s k)))) ->
     forall d, d < 3 -> patch_coordf rnd m P p d = Ok (centref rnd N X c s d)).
  { intros p Hp c s Hc Hs R d Hd. apply (patch_coordf_ok m P p N X); assumption. }
  set (pr := fun i p => let tv := nth i bcs (0, 0%R) in check_bdyf rnd (cen p) (fst tv) (snd tv)).
  assert (HK : forall i p, p < pt_num P -> let tv := nth i bcs (0, 0%R) in check_patchf rnd m P (fst tv) (snd tv) p = Ok (pr i p)).
  { intros i p Hp. cbv zeta. destruct (HS p Hp) as (c & s & Hc & Hs & _ & R). unfold check_patchf, pr. rewrite !(HC p Hp c s Hc Hs R) by lia. cbn [bind]. f_equal. apply check_bdyf_ext.
    intros d Hd. unfold cen. rewrite (HC p Hp c s Hc Hs R d Hd). destruct d as [|[|[|d]]]; [reflexivity..|lia]. }
  assert (Lp : 0 < length bcs) by (destruct bcs; [contradiction|cbn; lia]).
  destruct (tag_all (length bcs) B pr Lp (length bcs) ltac:(lia)) as (b & Eb & Hb).
  exists b, (fun s => filter (pr s) B), Q. split.
  - unfold generate_bcsf. rewrite EB. cbn [bind]. rewrite read_all_some. cbn [bind]. rewrite <- Eb. apply loop_ext. intros i st Hi.
    unfold get. rewrite (nth_error_nth' bcs (0, 0%R) Hi). cbn [bind]. apply tag_bdys_ext. intros p Hp. apply HK, HBlt, Hp.
  - intros s tag v Es. assert (Hs : s < length bcs) by (apply nth_error_Some; congruence). assert (Et : nth s bcs (0, 0%R) = (tag, v)) by (apply nth_error_nth; exact Es).
    split; [destruct (Hb s Hs) as (B1 & B2); split; assumption|]. split.
    + intros p k Hp Hk. apply filter_In in Hp. destruct Hp as (Hp & _). destruct (HS p (HBlt p Hp)) as (c & t & Hc & Ht & _ & R). unfold Q. rewrite (patch_node_ok _ _ _ _ (R k Hk)). rewrite (R k Hk). split; [reflexivity|].
      apply HN; [exact Hc|]. apply side_corner_lt; assumption.
    + intros n. split.
      * intros (p & k & Hp & Hk & <-). apply filter_In in Hp. destruct Hp as (Hp & Hpr). destruct (HS p (HBlt p Hp)) as (c & t & Hc & Ht & Ept & R).
        unfold Q. rewrite (patch_node_ok _ _ _ _ (R k Hk)). exists c, t, (side_corner t k). split.
        { split; [exact Hc|]. split; [exact Ht|]. rewrite <- Ept in Hp. exact (proj1 (HB c t Hc Ht) Hp). }
        unfold pr in Hpr. rewrite Et in Hpr. cbn [fst snd] in Hpr. rewrite (check_bdyf_ext _ (centref rnd N X c t)) in Hpr by (intros d Hd; unfold cen; rewrite (HC p (HBlt p Hp) c t Hc Ht R d Hd); reflexivity).
        split; [exact Hpr|]. split; [|reflexivity]. apply (C61_side_corners t Ht). exists k. auto.
      * intros (c & t & l & (Hc & Ht & U) & D & Ol & <-). assert (Hp : In (pt c t) B) by (apply (HB c t Hc Ht); exact U).
        destruct (HS _ (HBlt _ Hp)) as (c' & t' & Hc' & Ht' & Ept & R). destruct (U c' t' Hc' Ht' Ept) as (-> & ->).
        destruct (proj1 (proj1 (C61_side_corners t Ht) l) Ol) as (k & Hk & ->). exists (pt c t), k. split.
        { apply filter_In. split; [exact Hp|]. unfold pr. rewrite Et. cbn [fst snd]. rewrite (check_bdyf_ext _ (centref rnd N X c t)) by (intros d Hd; unfold cen; rewrite (HC _ (HBlt _ Hp) c t Hc Ht R d Hd); reflexivity).
          exact D. }
        split; [exact Hk|]. unfold Q. rewrite (patch_node_ok _ _ _ _ (R k Hk)). reflexivity.
Qed.
End B.
