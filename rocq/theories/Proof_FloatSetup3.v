(** The setup of examples/average in rounded arithmetic: cell field, mesh, the whole. *)
From Coq Require Import Reals List Arith ZArith Lra Lia Psatz Bool.
Import ListNotations.
Require Import Verif.Base Verif.NatSum Verif.RBase Verif.RSum Verif.Proof_High3 Verif.Spec_Patch Verif.Spec_High Verif.Spec_Full Verif.Model_Geom Verif.Model_Conn Verif.Model_Refine Verif.Model_Ref Verif.Model_Full
  Verif.Proof_High Verif.Proof_Full Verif.Proof_Full2 Verif.Proof_Full4 Verif.Prop_Full Verif.Prop_Patch Verif.Model_Average Verif.Spec_Average Verif.Spec_Dump Verif.Prop_Init Verif.Proof_Average Verif.Proof_Average2 Verif.Proof_Average4 Verif.Proof_Average5 Verif.Proof_Dump
  Verif.Model_File Verif.Spec_File Verif.Proof_File Verif.Proof_File2
  Verif.Spec_Float Verif.Float_Base Verif.Spec_FloatRefine Verif.Model_FloatRefine Verif.Proof_FloatRefine Verif.Proof_FloatRefine5 Verif.Model_FloatPatch Verif.Spec_FloatPatch Verif.Proof_FloatPatch Verif.Proof_FloatPatch2 Verif.Proof_FloatPatch3 Verif.Proof_FloatPatch4
  Verif.Proof_FloatPatch5 Verif.Proof_FloatRun2 Verif.Spec_FloatSetup Verif.Model_FloatSetup Verif.Proof_FloatSetup Verif.Proof_FloatSetup2 Verif.Model_Patch.
Local Open Scope nat_scope.

Lemma fill_covers_at rnd f x y z : fill_thisf rnd f x y z = true <->
  covers_at f x y z (rnd (sqrt (rnd (rnd (x * x) + rnd (y * y)))))%R (rnd (sqrt (rnd (rnd (rnd (x * x) + rnd (y * y)) + rnd (z * z)))))%R.
Proof.
  unfold fill_thisf, covers_at. cbv zeta. generalize (rnd (sqrt (rnd (rnd (x * x) + rnd (y * y)))))%R (rnd (sqrt (rnd (rnd (rnd (x * x) + rnd (y * y)) + rnd (z * z)))))%R. intros rc rs.
  assert (B1 : between (fl_x1 f) x (fl_x2 f) && between (fl_y1 f) y (fl_y2 f) && between (fl_z1 f) z (fl_z2 f) = true <-> (fl_x1 f <= x <= fl_x2 f /\ fl_y1 f <= y <= fl_y2 f /\ fl_z1 f <= z <= fl_z2 f)%R).
  { rewrite !andb_true_iff, !between_true. tauto. }
  assert (B2 := between_true (fl_r1 f) rc (fl_r2 f)). assert (B3 := between_true (fl_r1 f) rs (fl_r2 f)).
  revert B1 B2 B3. generalize (between (fl_x1 f) x (fl_x2 f) && between (fl_y1 f) y (fl_y2 f) && between (fl_z1 f) z (fl_z2 f)) (between (fl_r1 f) rc (fl_r2 f)) (between (fl_r1 f) rs (fl_r2 f)).
  intros b1 b2 b3 B1 B2 B3. destruct (fl_volume f) as [|[|[|[|v]]]]; destruct b1, b2, b3; intuition congruence.
Qed.

Section I.
Context (rnd : R -> R).
(** the last region that contains the computed centre *)
Lemma initialize_statef_raw m N X fills mat : cdescribes m N X -> length mat = cm_cells m ->
  exists mat', initialize_statef rnd m fills mat = Ok mat' /\ length mat' = cm_cells m /\
    forall c, c < cm_cells m -> let inside := fun f => fill_thisf rnd f (cenf rnd N X c 0) (cenf rnd N X c 1) (cenf rnd N X c 2) = true in
      (exists i f, nth_error fills i = Some f /\ inside f /\ (forall j g, i < j -> nth_error fills j = Some g -> ~ inside g) /\ val mat' c = fl_field2 f) \/
      ((forall i f, nth_error fills i = Some f -> ~ inside f) /\ val mat' c = val mat c).
Proof.
  intros HM Lm. unfold initialize_statef.
  set (ins := fun c f => fill_thisf rnd f (cenf rnd N X c 0) (cenf rnd N X c 1) (cenf rnd N X c 2) = true).
  edestruct (loop_inv (fun k (mat' : list R) => length mat' = cm_cells m /\ forall c, c < cm_cells m ->
      (exists i f, i < k /\ nth_error fills i = Some f /\ ins c f /\ (forall j g, i < j < k -> nth_error fills j = Some g -> ~ ins c g) /\ val mat' c = fl_field2 f) \/
      ((forall i f, i < k -> nth_error fills i = Some f -> ~ ins c f) /\ val mat' c = val mat c)) (length fills)) as (mat' & E & L' & H).
  3:{ exists mat'. split; [exact E|]. split; [exact L'|]. intros c Hc. cbv zeta. destruct (H c Hc) as [(i & f & Hi & Ef & If & Un & V)|(Un & V)].
    - left. exists i, f. split; [exact Ef|]. split; [exact If|]. split; [|exact V]. intros j g Hj Eg. apply (Un j); [|exact Eg]. split; [exact Hj|]. apply nth_error_Some. congruence.
    - right. split; [|exact V]. intros i f Ef. apply (Un i); [|exact Ef]. apply nth_error_Some. congruence. }
  - split; [exact Lm|]. intros c Hc. right. split; [intros; lia|reflexivity].
  - intros k mat' Hk (L' & H). destruct (nth_error fills k) as [f|] eqn:Ef; [|apply nth_error_None in Ef; lia]. unfold get. rewrite Ef. cbn [bind].
    edestruct (loop_inv (fun c0 (mat2 : list R) => length mat2 = cm_cells m /\ forall c, c < cm_cells m ->
      (c < c0 -> ins c f -> val mat2 c = fl_field2 f) /\ (c0 <= c \/ ~ ins c f -> val mat2 c = val mat' c)) (cm_cells m)) as (mat2 & E2 & L2 & H2).
    3:{ exists mat2. split; [exact E2|]. split; [exact L2|]. intros c Hc. destruct (H2 c Hc) as (A & B).
      destruct (fill_thisf rnd f (cenf rnd N X c 0) (cenf rnd N X c 1) (cenf rnd N X c 2)) eqn:Fl.
      - left. exists k, f. split; [lia|]. split; [exact Ef|]. split; [exact Fl|]. split; [intros; lia|]. apply A; assumption.
      - assert (Nf : ~ ins c f) by (unfold ins; congruence). rewrite B by (right; exact Nf).
        destruct (H c Hc) as [(i & g & Hi & Eg & If & Un & V)|(Un & V)].
        + left. exists i, g. split; [lia|]. split; [exact Eg|]. split; [exact If|]. split; [|exact V]. intros j g' Hj Eg'. destruct (Nat.eq_dec j k) as [->|Ne]; [congruence|]. apply (Un j); [lia|exact Eg'].
        + right. split; [|exact V]. intros i g Hi Eg. destruct (Nat.eq_dec i k) as [->|Ne]; [congruence|]. apply (Un i); [lia|exact Eg]. }
    + split; [exact L'|]. intros c Hc. split; [intros; lia|reflexivity].
    + intros c0 mat2 Hc0 (L2 & H2). rewrite !(cell_centref_ok rnd m N X) by (assumption || lia). cbn [bind].
      destruct (fill_thisf rnd f (cenf rnd N X c0 0) (cenf rnd N X c0 1) (cenf rnd N X c0 2)) eqn:Fl.
      * rewrite set_ok by lia. eexists. split; [reflexivity|]. split; [rewrite upd_length; exact L2|]. intros c Hc. unfold val. rewrite nth_upd by lia.
        destruct (Nat.eqb_spec c c0) as [->|Ne].
        -- split; [reflexivity|]. intros [Z|Z]; [lia|]. exfalso. apply Z. exact Fl.
        -- destruct (H2 c Hc) as (A & B). split; [intros Z If; apply A; [lia|exact If]|]. intros Z. apply B. destruct Z as [Z|Z]; [left; lia|right; exact Z].
      * eexists. split; [reflexivity|]. split; [exact L2|]. intros c Hc. destruct (H2 c Hc) as (A & B). split.
        -- intros Z If. apply A; [|exact If]. destruct (Nat.eq_dec c c0) as [->|Ne]; [|lia]. unfold ins in If. congruence.
        -- intros Z. apply B. destruct Z as [Z|Z]; [left; lia|right; exact Z].
Qed.
End I.

Section M.
Context (u : R) (rnd : R -> R).
Hypothesis HD : double_like u rnd.

Lemma init_connectivityf_ok m N X d nc : cdescribes m N X -> cm_cells m = S nc -> corner_spacing N X nc d -> (0 < d <= 10 ^ 64)%R ->
  (exists c c', c < S nc /\ c' < S nc /\ c <> c' /\ touch 8 N c c') -> init_connectivityf rnd m = Ok tt.
Proof.
  intros HM Ec HL Hd HS. destruct (connectivityf_ok u rnd HD 0 0 [] m N X (fun _ _ => 0) d nc HM Ec HL Hd ltac:(intros; lia) ltac:(lia) HS) as (C & pt & E & _).
  unfold build_connectivityf in E. unfold init_connectivityf. cbv zeta in *. rewrite Ec in *. cbn [Nat.eqb].
  destruct (read_all (S nc * 8) (cm_conn m)); [|discriminate]. cbn [bind] in *. destruct (build_node_cell 8 (S nc) (cm_nodes m) a); [|discriminate]. cbn [bind] in *.
  destruct (build_corner _ _ _ _ _); [|discriminate]. cbn [bind] in *. destruct (build_cell_cell _ _ _ _); [|discriminate]. cbn [bind] in *.
  destruct (face_keysf _ _ _); [|discriminate]. cbn [bind] in *. destruct (build_patches _ _ _); [reflexivity|discriminate].
Qed.

Lemma parse_meshf_ok t nn ne X V : lists_mesh t nn ne X V -> (forall e v, e < ne -> v < 8 -> V e v < nn) ->
  exists m, parse_meshf rnd t = Ok m /\ cm_nodes m = nn /\ cm_cells m = ne /\ cdescribes m (fun e l => V e (vert l)) (fun n d => rnd (X n d)).
Proof.
  intros HT HV. destruct (lists_parse t nn ne X V HT HV) as (m & E & E1 & E2 & (H1 & H2)). unfold parse_meshf. rewrite E. cbn [bind].
  eexists. split; [reflexivity|]. cbn [cm_nodes cm_cells]. split; [exact E1|]. split; [exact E2|]. split; [exact H1|].
  intros n d Hn Hd. specialize (H2 n d Hn Hd). unfold cm_coord, getu in *. cbn [cm_coords cm_nodes] in *. rewrite nth_error_map. destruct (nth_error (cm_coords m) (n * 3 + d)) as [[x|]|]; try discriminate. cbn. injection H2 as ->. reflexivity.
Qed.

(** the refined mesh with what the solver needs *)
Theorem refined_sound p m N X d ne : let n1 := pts1 p in let ns := Spec_Full.sub1 p in let ng := n1 ^ 3 in let nc := S ne * ns ^ 3 in
  1 <= p <= 9 -> cdescribes m N X -> cm_cells m = S ne -> corner_spacing N X ne d -> (0 < d <= 10 ^ 64)%R ->
  exists r nd CN CX, refine_cellsf rnd p m = Ok r /\ cm_cells (rf_mesh r) = nc /\ cdescribes (rf_mesh r) CN CX /\
    (forall e l i, e < S ne -> l < ng -> i < 3 -> exists x, getu (rf_points r) ((e * ng + l) * 3 + i) = Ok x) /\
    (forall e i j k c, e < S ne -> i < ns -> j < ns -> k < ns -> c < 8 -> CN (cell_id p e i j k) c = nd (e * ng + corner_pt p i j k c)) /\
    (forall v, v < cm_nodes (rf_mesh r) -> exists g, g < S ne * ng /\ nd g = v /\ forall i, i < 3 -> getu (rf_points r) (g * 3 + i) = Ok (CX v i)) /\
    ((forall a b, a < 8 -> b < 8 -> a <> b -> exists i, i < 3 /\ CX (CN (nc - 1) a) i <> CX (CN (nc - 1) b) i) ->
     (forall l i, l < 8 -> i < 3 -> (Rabs (CX (CN (nc - 1)%nat l) i) <= 10 ^ 63)%R) ->
     exists C pt, refine_meshf rnd p m = Ok (r, C) /\ patches_right (cn_patches C) nc CN pt /\
       forall sets, let sv := Solver (S ne) (num_sub_1d p) (num_g_pts_1d p ^ 3) (rf_maps r) (rf_mesh r) C sets in
         mesh_sound sv CN CX /\ elems_sound sv (fun e l => cell_id p e (l mod ns) (l / ns mod ns) (l / ns / ns)) (fun e l => nd (e * ng + l))).
Proof.
  intros n1 ns ng nc Hp HM Ec HL Hd.
  destruct (refine_cellsf_ok u rnd HD p m N X d ne (proj2 Hp) HM Ec HL Hd) as (r & nd & Er & H). cbv zeta in H. fold n1 ns ng in H.
  destruct H as (Ecc & Hpts & Hnd & Hown & Hz & Hsame & Hcell). set (M := rf_mesh r) in *.
  assert (Enc : nc = S ne * (ns * ns * ns)) by (unfold nc; cbn [Nat.pow]; ring).
  destruct (pts1_sub p) as (A1 & A2). fold n1 ns in A1, A2. assert (N2 : 2 <= ns) by (unfold ns, Spec_Full.sub1, pts1; destruct p; lia).
  set (CN := fun c l => match cm_node M c l with Ok n => n | Err _ => 0 end).
  set (CX := fun v d => match cm_coord M v d with Ok x => x | Err _ => 0%R end).
  assert (HCN : forall e i j k c, e < S ne -> i < ns -> j < ns -> k < ns -> c < 8 -> CN (cell_id p e i j k) c = nd (e * ng + corner_pt p i j k c)).
  { intros e i j k c He Hi Hj Hk Hc. destruct (Hcell e i j k He Hi Hj Hk) as (_ & _ & Q). destruct (Q c Hc) as (_ & Q'). unfold CN. rewrite Q'. reflexivity. }
  assert (Cpt : forall e i j k c, e < S ne -> i < ns -> j < ns -> k < ns -> c < 8 -> e * ng + corner_pt p i j k c < S ne * ng).
  { intros e i j k c He Hi Hj Hk Hc. assert (c mod 2 < 2) by (apply Nat.mod_upper_bound; lia). assert (c / 2 mod 2 < 2) by (apply Nat.mod_upper_bound; lia). assert (c / 4 < 2) by (apply Nat.div_lt_upper_bound; lia).
    assert (L : corner_pt p i j k c < ng) by (unfold corner_pt, ng; cbv zeta; fold n1; apply grid3_lt; lia). nia. }
  assert (HMr : cdescribes M CN CX).
  { split.
    - intros c l Hc Hl. rewrite Ecc in Hc. destruct (cell_split p (S ne) c Hc) as (e & i & j & k & He & Hi & Hj & Hk & ->). rewrite HCN by assumption.
      destruct (Hcell e i j k He Hi Hj Hk) as (_ & _ & Q). destruct (Q l Hl) as (_ & Q'). rewrite Q'. split; [reflexivity|]. apply Hnd. apply Cpt; assumption.
    - intros v i Hv Hi. unfold CX. destruct (Hown v Hv) as (g & Hg & _ & Q). rewrite (Q i Hi). reflexivity. }
  exists r, nd, CN, CX. split; [exact Er|]. split; [rewrite Enc; exact Ecc|]. split; [exact HMr|].
  split; [intros e l i He Hl Hi; eexists; apply Hpts; [nia|exact Hi]|]. split; [exact HCN|].
  split; [intros v Hv; destruct (Hown v Hv) as (g & Hg & Eg & Q); exists g; split; [exact Hg|]; split; [exact Eg|]; intros i Hi; unfold CX; rewrite (Q i Hi); apply Hpts; assumption|].
  intros Hne H63. destruct (spacing_exists CN CX (nc - 1) Hne H63) as (d' & HL' & Hd').
  assert (Pnc : nc = S (nc - 1)) by (unfold nc; assert (0 < ns ^ 3) by (cbn [Nat.pow]; nia); nia).
  assert (Sh : exists c c', c < S (nc - 1) /\ c' < S (nc - 1) /\ c <> c' /\ touch 8 CN c c').
  { rewrite <- Pnc. exists (cell_id p 0 0 0 0), (cell_id p 0 1 0 0). rewrite Enc. split; [apply cell_id_lt; fold ns; lia|]. split; [apply cell_id_lt; fold ns; lia|].
    split; [unfold cell_id; cbv zeta; lia|]. exists 1, 0. split; [lia|]. split; [lia|]. rewrite !HCN by lia. reflexivity. }
  set (GN := fun e l => nd (e * ng + l)).
  assert (HG : forall e l, e < S ne -> l < ng -> getu (mg_node (rf_merged r)) (e * ng + l) = Ok (GN e l) /\ GN e l < cm_nodes M).
  { intros e l He Hl. apply (Hnd (e * ng + l)). nia. }
  assert (Nge : S ne <= S (nc - 1)) by (rewrite <- Pnc; unfold nc; assert (0 < ns ^ 3) by (cbn [Nat.pow]; nia); nia).
  destruct (connectivityf_ok u rnd HD ng (S ne) (mg_node (rf_merged r)) M CN CX GN d' (nc - 1) HMr ltac:(rewrite Ecc; lia) HL' Hd' HG Nge Sh) as (C & pt & EC & B1 & B2 & B3 & B4 & B5 & B6 & B7 & B8).
  rewrite <- Pnc in B1, B2, B3, B4, B5. exists C, pt. split.
  { unfold refine_meshf. rewrite Er. cbn [bind]. rewrite Ec, pts1_model. fold n1 ng M. rewrite EC. reflexivity. }
  split; [exact B4|]. intros sets. cbv zeta.
  assert (Ens : num_sub_1d p = ns) by apply sub1_model.
  assert (Eng : num_g_pts_1d p ^ 3 = ng) by (unfold ng, n1; rewrite pts1_model; reflexivity).
  assert (Dec : forall l, l < ns * ns * ns -> l mod ns < ns /\ l / ns mod ns < ns /\ l / ns / ns < ns /\ l = l mod ns + l / ns mod ns * ns + l / ns / ns * ns * ns).
  { intros l Hl. split; [apply Nat.mod_upper_bound; lia|]. split; [apply Nat.mod_upper_bound; lia|]. split; [apply Nat.div_lt_upper_bound; [lia|]; apply Nat.div_lt_upper_bound; lia|].
    rewrite (Nat.div_mod l ns) at 1 by lia. rewrite (Nat.div_mod (l / ns) ns) at 1 by lia. ring. }
  split.
  - split; cbn [sv_mesh sv_conn]; fold M; [exact HMr|]. rewrite Ecc, <- Enc. exact B1.
  - split; cbn [sv_elems sv_ns sv_G sv_mesh sv_conn sv_maps]; rewrite ?Ens, ?Eng; fold M.
    + intros e l He Hl. destruct (Dec l Hl) as (Q1 & Q2 & Q3 & Q4). split; [rewrite Q4 at 1; apply (Hcell e _ _ _ He Q1 Q2 Q3)|]. rewrite Ecc. apply cell_id_lt; assumption.
    + intros c Hc. rewrite Ecc in Hc. destruct (cell_split p (S ne) c Hc) as (e & i & j & k & He & Hi & Hj & Hk & ->). fold ns in Hi, Hj, Hk. exists e, (i + j * ns + k * ns * ns). split; [exact He|].
      assert (M1 : (i + j * ns + k * ns * ns) mod ns = i) by (replace (i + j * ns + k * ns * ns) with (i + (j + k * ns) * ns) by ring; rewrite Nat.mod_add by lia; apply Nat.mod_small; exact Hi).
      assert (M2 : (i + j * ns + k * ns * ns) / ns = j + k * ns) by (replace (i + j * ns + k * ns * ns) with (i + (j + k * ns) * ns) by ring; rewrite Nat.div_add, Nat.div_small by lia; lia).
      assert (M3 : (j + k * ns) mod ns = j) by (rewrite Nat.mod_add by lia; apply Nat.mod_small; exact Hj).
      assert (M4 : (j + k * ns) / ns = k) by (rewrite Nat.div_add, Nat.div_small by lia; lia).
      split; [nia|]. rewrite M2, M1, M3, M4. reflexivity.
    + intros e l He Hl. split; [apply B7; assumption|]. apply (HG e l He Hl).
    + intros n Hn. destruct (Hown n Hn) as (g & Hg & <- & _). exists (g / ng), (g mod ng). assert (0 < ng) by (unfold ng; cbn [Nat.pow]; nia).
      split; [apply Nat.div_lt_upper_bound; lia|]. split; [apply Nat.mod_upper_bound; lia|]. unfold GN. f_equal. rewrite (Nat.div_mod g ng) at 3 by lia. ring.
Qed.
End M.
