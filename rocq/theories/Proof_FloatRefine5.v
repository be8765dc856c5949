(** Refinement in rounded arithmetic: the whole result. *)
From Coq Require Import Reals List Arith ZArith Lra Lia.
From Flocq Require Import Core.
Import ListNotations.
Require Import Verif.Base Verif.RBase Verif.RSum Verif.Model_Quad Verif.Model_Geom Verif.Model_Refine Verif.Model_Ref Verif.Model_High Verif.Spec_Quad Verif.Spec_High
  Verif.Proof_High2 Verif.Proof_High3 Verif.Proof_High Verif.Model_Full Verif.Spec_Full Verif.Proof_Full
  Verif.Spec_Float Verif.Float_Base Verif.Model_FloatLagrange Verif.Model_FloatRefine Verif.Spec_FloatRefine Verif.Proof_FloatRefine Verif.Proof_FloatRefine2 Verif.Proof_FloatRefine3.
Local Open Scope nat_scope.

(** * doubles *)
Lemma double_like_b64 : double_like u64 binary64.
Proof.
  assert (Pg : Prec_gt_0 53) by (unfold Prec_gt_0; lia). assert (B := u64_range). unfold double_like. split.
  { split; [exact (Rlt_le _ _ (proj1 B))|]. unfold u64. apply Rinv_le_contravar; [lra|]. apply Rle_trans with (2 ^ 4)%R; [lra|]. apply Rle_pow; [lra|lia]. }
  split; [exact binary64_rounds|].
  assert (G : forall x, generic_format radix2 (FLX_exp 53) (binary64 x)) by (intros x; apply generic_format_round; typeclasses eauto).
  split; [intros x; apply round_generic; [typeclasses eauto|apply G]|].
  split; [intros x; unfold binary64; apply round_NE_opp|].
  split.
  { intros x. unfold binary64. replace (2 * x)%R with (x * bpow radix2 1)%R by (cbn; ring). replace (2 * round radix2 (FLX_exp 53) ZnearestE x)%R with (round radix2 (FLX_exp 53) ZnearestE x * bpow radix2 1)%R by (cbn; ring).
    destruct (Req_dec x 0) as [-> |Nx]; [rewrite Rmult_0_l, round_0 by typeclasses eauto; ring|].
    unfold round, F2R, scaled_mantissa, cexp, FLX_exp. cbn [Fnum Fexp]. rewrite mag_mult_bpow by exact Nx.
    replace (x * bpow radix2 1 * bpow radix2 (- (mag radix2 x + 1 - 53)))%R with (x * bpow radix2 (- (mag radix2 x - 53)))%R.
    - rewrite Rmult_assoc, <- bpow_plus. do 2 f_equal. lia.
    - rewrite Rmult_assoc, <- bpow_plus. do 2 f_equal. lia. }
  split; [intros x y H; apply round_le; [typeclasses eauto|typeclasses eauto|exact H]|].
  apply round_generic; [typeclasses eauto|]. change 1%R with (bpow radix2 0). apply generic_format_bpow. cbn. lia.
Qed.

Section P.
Context (u : R) (rnd : R -> R).
Hypothesis HD : double_like u rnd.

Theorem refine_cellsf_ok p m N X d ne : let n1 := pts1 p in let ns := Spec_Full.sub1 p in let ng := n1 ^ 3 in
  p <= 9 -> cdescribes m N X -> cm_cells m = S ne -> corner_spacing N X ne d -> (0 < d <= 10 ^ 64)%R ->
  exists r nd, refine_cellsf rnd p m = Ok r /\ let M := rf_mesh r in
    cm_cells M = S ne * (ns * ns * ns) /\
    (forall g i, g < S ne * ng -> i < 3 -> getu (rf_points r) (g * 3 + i) = Ok (tri_posf rnd p N X g i)) /\
    (forall g, g < S ne * ng -> node_in_gauss (rf_merged r) g = Ok (nd g) /\ nd g < cm_nodes M) /\
    (forall v, v < cm_nodes M -> exists g, g < S ne * ng /\ nd g = v /\ forall i, i < 3 -> cm_coord M v i = Ok (tri_posf rnd p N X g i)) /\
    (forall g, g < S ne * ng -> (nd g = 0 <-> g = 0)) /\
    (forall g g', 0 < g < S ne * ng -> 0 < g' < S ne * ng -> (forall i, i < 3 -> tri_posf rnd p N X g i = tri_posf rnd p N X g' i) -> nd g = nd g') /\
    forall e i j k, e < S ne -> i < ns -> j < ns -> k < ns ->
      cells_in_elem (rf_maps r) ns e (i + j * ns + k * ns * ns) = Ok (cell_id p e i j k) /\
      elems_in_cell (rf_maps r) (cell_id p e i j k) = Ok e /\
      forall c, c < 8 -> gauss_in_cell (rf_maps r) (cell_id p e i j k) c = Ok (e * ng + corner_pt p i j k c) /\
        cm_node M (cell_id p e i j k) c = Ok (nd (e * ng + corner_pt p i j k c)).
Proof.
  intros n1 ns ng Hp HM Ec HL Hd.
  destruct (refine_pointsf_ok rnd p m N X Hp HM) as (pts & Epts & Gpts). rewrite Ec in Gpts. fold n1 ng in Gpts.
  destruct (refine_keysf_ok u rnd HD p m N X pts _ d ne HM Ec HL Hd Gpts) as (ks & mx & mn & t & Eks & Lks & Ebox & Wt & Hks). fold n1 ng in Lks, Hks.
  destruct (refine_tail_ok p ne pts ks _ Hp Gpts Lks) as (r & nd & own & Er & H). fold n1 ns ng in H. cbv zeta in H.
  destruct H as (H1 & H2 & H3 & H4 & H5 & H6 & H7 & H8 & H9).
  exists r, nd. split; [rewrite refine_cellsf_tail, Epts; cbn [bind]; rewrite Eks; cbn [bind]; rewrite Ec; exact Er|]. cbv zeta.
  split; [exact H1|]. split; [exact H3|]. split; [exact H4|].
  split. { intros v Hv. destruct (H5 v Hv) as (A & B & C). exists (own v). auto. }
  split. { intros g Hg. split; [|intros ->; exact H6]. intros Q. destruct (Nat.eq_dec g 0); [assumption|]. exfalso. apply (H7 g); [lia|exact Q]. }
  split. { intros g g' Hg Hg' Q. apply H8; [exact Hg|exact Hg'|]. rewrite !Hks by lia. f_equal. unfold keyf. unfold scaled. rewrite !Q by lia. reflexivity. }
  intros e i j k He Hi Hj Hk. exact (H9 e k j i He Hk Hj Hi).
Qed.
Lemma same_node p m N X d ne g g' : let ng := pts1 p ^ 3 in
  p <= 9 -> cdescribes m N X -> cm_cells m = S ne -> corner_spacing N X ne d -> (0 < d <= 10 ^ 64)%R ->
  0 < g < S ne * ng -> 0 < g' < S ne * ng -> (forall i, tri_posf rnd p N X g i = tri_posf rnd p N X g' i) ->
  exists r v, refine_cellsf rnd p m = Ok r /\ node_in_gauss (rf_merged r) g = Ok v /\ node_in_gauss (rf_merged r) g' = Ok v.
Proof.
  intros ng Hp HM Ec HL Hd Hg Hg' Q. destruct (refine_cellsf_ok p m N X d ne Hp HM Ec HL Hd) as (r & nd & Er & H). cbv zeta in H. fold ng in H. destruct H as (_ & _ & Hnd & _ & _ & Hs & _).
  exists r, (nd g). split; [exact Er|]. split; [apply Hnd; lia|]. rewrite (Hs g g' Hg Hg' (fun i _ => Q i)). apply Hnd. lia.
Qed.
Lemma at3_lt n D t a b : D < 3 -> t < n -> a < n -> b < n -> at3 n D t a b < n ^ 3.
Proof. intros HD3 Ht Ha Hb. destruct D as [|[|[|D]]]; [| | |lia]; unfold at3; apply grid3_lt; lia. Qed.
Lemma end_lt p s : p <= 9 -> s < 2 -> s * Spec_Full.sub1 p < pts1 p.
Proof. intros Hp Hs. assert (R := pts1_range p Hp). destruct (pts1_sub p) as (A & B). destruct s as [|[|s]]; lia. Qed.
End P.
