(** Patches of the refined mesh in rounded arithmetic. *)
From Coq Require Import Reals List Arith ZArith Lra Lia Psatz Bool.
Import ListNotations.
Require Import Verif.Base Verif.RBase Verif.RSum Verif.Spec_Patch Verif.Model_Geom Verif.Proof_Geom Verif.Proof_Tri Verif.Model_Conn Verif.Spec_Quad Verif.Spec_High Verif.Proof_High Verif.Proof_High3
  Verif.Model_Refine Verif.Model_Ref Verif.Model_High Verif.Model_Full Verif.Spec_Full Verif.Proof_Full Verif.Proof_Full2 Verif.Proof_Full3 Verif.Proof_Full4 Verif.Spec_Float Verif.Float_Base Verif.Model_FloatLagrange Verif.Model_FloatRefine Verif.Spec_FloatRefine
  Verif.Proof_FloatRefine Verif.Proof_FloatRefine2 Verif.Proof_FloatRefine3 Verif.Proof_FloatRefine4 Verif.Proof_FloatRefine5 Verif.Model_FloatPatch Verif.Spec_FloatPatch Verif.Proof_FloatPatch Verif.Proof_FloatPatch2 Verif.Proof_FloatPatch3 Verif.Proof_FloatPatch4 Verif.Model_Patch.
Local Open Scope nat_scope.

Definition pick (D t a b d : nat) : nat := match D with 0 => match d with 0 => t | 1 => a | _ => b end | 1 => match d with 0 => a | 1 => t | _ => b end | _ => match d with 0 => a | 1 => b | _ => t end end.
Lemma cell_at3 p e D t a b : D < 3 -> at3 (Spec_Full.sub1 p) D t a b + Spec_Full.sub1 p ^ 3 * e = cell_id p e (pick D t a b 0) (pick D t a b 1) (pick D t a b 2).
Proof. intros H. unfold cell_id. cbv zeta. cbn [Nat.pow]. destruct D as [|[|[|D]]]; [| | |lia]; cbn [at3 pick]; ring. Qed.
Definition px (D k : nat) : nat := match D with 0 => corner_coord (side_corner 0 k) 1 | 1 => corner_coord (side_corner 2 k) 0 | _ => corner_coord (side_corner 4 k) 0 end.
Definition py (D k : nat) : nat := match D with 0 => corner_coord (side_corner 0 k) 2 | 1 => corner_coord (side_corner 2 k) 2 | _ => corner_coord (side_corner 4 k) 1 end.
Lemma pxy_lt D k : px D k < 2 /\ py D k < 2.
Proof. split; destruct D as [|[|D]]; apply Nat.mod_upper_bound; lia. Qed.
Lemma corner_at3 p D t a b s k : D < 3 -> s < 2 -> k < 4 ->
  corner_pt p (pick D t a b 0) (pick D t a b 1) (pick D t a b 2) (side_corner (2 * D + s) k) = at3 (pts1 p) D (t + s) (a + px D k) (b + py D k).
Proof.
  intros HD Hs Hk. unfold corner_pt. cbv zeta.
  assert (s = 0 \/ s = 1) as [-> | ->] by lia; destruct D as [|[|[|D]]]; try lia; do 4 (destruct k as [|k]; [reflexivity|]); lia.
Qed.
Lemma pick_lt n D t a b d : D < 3 -> t < n -> a < n -> b < n -> pick D t a b d < n.
Proof. intros H Ht Ha Hb. destruct D as [|[|[|D]]]; try lia; destruct d as [|[|d]]; cbn; lia. Qed.

Section P.
Context (u : R) (rnd : R -> R).
Hypothesis HD : double_like u rnd.

Theorem refine_meshf_ok p m N X d ne : let n1 := pts1 p in let ns := Spec_Full.sub1 p in let ng := n1 ^ 3 in let nc := S ne * ns ^ 3 in
  1 <= p <= 9 -> cdescribes m N X -> cm_cells m = S ne -> corner_spacing N X ne d -> (0 < d <= 10 ^ 64)%R ->
  exists r nd CN CX, refine_cellsf rnd p m = Ok r /\ cm_cells (rf_mesh r) = nc /\ cdescribes (rf_mesh r) CN CX /\
    (forall g, g < S ne * ng -> node_in_gauss (rf_merged r) g = Ok (nd g)) /\
    (forall e i j k c, e < S ne -> i < ns -> j < ns -> k < ns -> c < 8 -> CN (cell_id p e i j k) c = nd (e * ng + corner_pt p i j k c)) /\
    ((forall a b, a < 8 -> b < 8 -> a <> b -> exists i, i < 3 /\ CX (CN (nc - 1) a) i <> CX (CN (nc - 1) b) i) ->
     (forall l i, l < 8 -> i < 3 -> (Rabs (CX (CN (nc - 1)%nat l) i) <= 10 ^ 63)%R) ->
     exists C pt, refine_meshf rnd p m = Ok (r, C) /\
       around_nodes (cn_node_cells C) (cm_nodes (rf_mesh r)) nc 8 CN /\
       corners_right (cn_corners C) (cm_nodes (rf_mesh r)) nc CN /\
       neighbours_right (num_cells_in_cell (cn_cell_cells C)) (cells_in_cell (cn_cell_cells C)) nc 8 CN /\
       patches_right (cn_patches C) nc CN pt /\
       around_nodes (cn_node_elems C) (cm_nodes (rf_mesh r)) (S ne) ng (fun e l => nd (e * ng + l)) /\
       neighbours_right (num_elems_in_elem (cn_elem_elems C)) (elems_in_elem (cn_elem_elems C)) (S ne) ng (fun e l => nd (e * ng + l)) /\
       (forall e D t a b, e < S ne -> D < 3 -> t + 1 < ns -> a < ns -> b < ns ->
          pt (at3 ns D t a b + ns ^ 3 * e) (2 * D + 1) = pt (at3 ns D (t + 1) a b + ns ^ 3 * e) (2 * D)) /\
       (forall e e' D a b, e < S ne -> 0 < e' < S ne -> D < 3 -> a < ns -> b < ns ->
          (forall i j, i < 2 -> j < 2 -> N e (at3 2 D 1 i j) = N e' (at3 2 D 0 i j)) ->
          pt (at3 ns D (ns - 1) a b + ns ^ 3 * e) (2 * D + 1) = pt (at3 ns D 0 a b + ns ^ 3 * e') (2 * D))).
Proof.
  intros n1 ns ng nc Hp HM Ec HL Hd.
  destruct (refine_cellsf_ok u rnd HD p m N X d ne (proj2 Hp) HM Ec HL Hd) as (r & nd & Er & H). cbv zeta in H. fold n1 ns ng in H.
  destruct H as (Ecc & Hpts & Hnd & Hown & Hz & Hsame & Hcell). set (M := rf_mesh r) in *.
  assert (Enc : nc = S ne * (ns * ns * ns)) by (unfold nc; cbn [Nat.pow]; ring).
  destruct (pts1_sub p) as (A1 & A2). fold n1 ns in A1, A2. assert (N2 : 2 <= ns) by (unfold ns, Spec_Full.sub1, pts1; destruct p; lia).
  set (CN := fun c l => match cm_node M c l with Ok n => n | Err _ => 0 end).
  set (CX := fun v d => match cm_coord M v d with Ok x => x | Err _ => 0%R end).
  assert (HCN : forall e i j k c, e < S ne -> i < ns -> j < ns -> k < ns -> c < 8 -> CN (cell_id p e i j k) c = nd (e * ng + corner_pt p i j k c)).
  { intros e i j k c He Hi Hj Hk Hc. destruct (Hcell e i j k He Hi Hj Hk) as (_ & _ & Q). destruct (Q c Hc) as (_ & Q'). unfold CN. rewrite Q'. reflexivity. }
  assert (Cpt : forall e i j k c, e < S ne -> i < ns -> j < ns -> k < ns -> c < 8 -> e * ng + corner_pt p i j k c < S ne * ng).
  { intros e i j k c He Hi Hj Hk Hc. assert (c mod 2 < 2) by (apply Nat.mod_upper_bound; lia). assert (c / 2 mod 2 < 2) by (apply Nat.mod_upper_bound; lia). assert (c / 4 < 2) by (apply Nat.div_lt_upper_bound; lia).
    assert (L : corner_pt p i j k c < ng) by (unfold corner_pt, ng; cbv zeta; fold n1; apply grid3_lt; lia). nia. }
  assert (HMr : cdescribes M CN CX).
  { split.
    - intros c l Hc Hl. rewrite Ecc in Hc. destruct (cell_split p (S ne) c Hc) as (e & i & j & k & He & Hi & Hj & Hk & ->). rewrite HCN by assumption.
      destruct (Hcell e i j k He Hi Hj Hk) as (_ & _ & Q). destruct (Q l Hl) as (_ & Q'). rewrite Q'. split; [reflexivity|]. apply Hnd. apply Cpt; assumption.
    - intros v i Hv Hi. unfold CX. destruct (Hown v Hv) as (g & Hg & _ & Q). rewrite (Q i Hi). reflexivity. }
  exists r, nd, CN, CX. split; [exact Er|]. split; [rewrite Enc; exact Ecc|]. split; [exact HMr|]. split; [intros g Hg; apply Hnd, Hg|]. split; [exact HCN|].
  intros Hne H63. destruct (spacing_exists CN CX (nc - 1) Hne H63) as (d' & HL' & Hd').
  assert (Pnc : nc = S (nc - 1)) by (unfold nc; assert (0 < ns ^ 3) by (cbn [Nat.pow]; nia); nia).
  assert (Sh : exists c c', c < S (nc - 1) /\ c' < S (nc - 1) /\ c <> c' /\ touch 8 CN c c').
  { rewrite <- Pnc. exists (cell_id p 0 0 0 0), (cell_id p 0 1 0 0). rewrite Enc. split; [apply cell_id_lt; fold ns; lia|]. split; [apply cell_id_lt; fold ns; lia|].
    split; [unfold cell_id; cbv zeta; lia|]. exists 1, 0. split; [lia|]. split; [lia|]. rewrite !HCN by lia. reflexivity. }
  set (GN := fun e l => nd (e * ng + l)).
  assert (HG : forall e l, e < S ne -> l < ng -> getu (mg_node (rf_merged r)) (e * ng + l) = Ok (GN e l) /\ GN e l < cm_nodes M).
  { intros e l He Hl. apply (Hnd (e * ng + l)). nia. }
  assert (Nge : S ne <= S (nc - 1)) by (rewrite <- Pnc; unfold nc; assert (0 < ns ^ 3) by (cbn [Nat.pow]; nia); nia).
  destruct (connectivityf_ok u rnd HD ng (S ne) (mg_node (rf_merged r)) M CN CX GN d' (nc - 1) HMr ltac:(rewrite Ecc; lia) HL' Hd' HG Nge Sh) as (C & pt & EC & B1 & B2 & B3 & B4 & B5 & B6 & B7 & B8).
  rewrite <- Pnc in B1, B2, B3, B4, B5. exists C, pt. split.
  { unfold refine_meshf. rewrite Er. cbn [bind]. rewrite Ec, pts1_model. fold n1 ng M. rewrite EC. reflexivity. }
  repeat (split; [assumption|]).
  assert (Hid : forall e D t a b, e < S ne -> D < 3 -> t < ns -> a < ns -> b < ns -> at3 ns D t a b + ns ^ 3 * e < nc).
  { intros e D t a b He HD3 Ht Ha Hb. assert (L := at3_lt ns D t a b HD3 Ht Ha Hb). unfold nc. nia. }
  assert (Same : forall e D t e' t' a b, e < S ne -> D < 3 -> t < ns -> e' < S ne -> t' < ns -> a < ns -> b < ns ->
     (forall x y, x < n1 -> y < n1 -> nd (e * ng + at3 n1 D (t + 1) x y) = nd (e' * ng + at3 n1 D t' x y)) ->
     pt (at3 ns D t a b + ns ^ 3 * e) (2 * D + 1) = pt (at3 ns D t' a b + ns ^ 3 * e') (2 * D)).
  { intros e D t e' t' a b He HD3 Ht He' Ht' Ha Hb Q. apply B5; try apply Hid; try assumption; try lia. intros i Hi. apply centref_ext. intros k Hk. apply (f_equal (fun v => CX v i)).
    unfold ns. rewrite !cell_at3 by exact HD3. rewrite !HCN by (try assumption; try (apply pick_lt; assumption); apply side_corner_lt; lia).
    rewrite (corner_at3 p D t a b 1 k HD3 ltac:(lia) Hk). assert (Z' := corner_at3 p D t' a b 0 k HD3 ltac:(lia) Hk). rewrite !Nat.add_0_r in Z'. rewrite Z'.
    destruct (pxy_lt D k) as (Bx & By). apply Q; lia. }
  split.
  - intros e D t a b He HD3 Ht Ha Hb. apply Same; try assumption; try lia.
  - intros e e' D a b He He' HD3 Ha Hb HN. apply Same; try assumption; try lia. intros x y Hx Hy. replace (ns - 1 + 1) with (1 * ns) by lia.
    assert (L := at3_lt n1 D (1 * ns) x y HD3 ltac:(lia) Hx Hy). assert (L' := at3_lt n1 D 0 x y HD3 ltac:(lia) Hx Hy). fold ng in L, L'.
    assert (P0 : 0 < at3 n1 D (1 * ns) x y) by (destruct D as [|[|[|D]]]; [| | |lia]; unfold at3; nia).
    apply Hsame; [nia|nia|]. intros i Hi.
    exact (faces_equal u rnd HD p N X (proj2 Hp) e D 1 e' D 0 x y i HD3 ltac:(lia) HD3 ltac:(lia) Hx Hy HN).
Qed.
End P.
