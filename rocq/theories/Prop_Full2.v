(** C61, continued: where refine_mesh fails or merges too much, and examples. *)
From Coq Require Import Reals List Arith ZArith Lra Lia Sorted Bool.
Import ListNotations.
Require Import Verif.Base Verif.NatSum Verif.RBase Verif.RSum Verif.Spec_Lagrange Verif.Lagrange_Math Verif.Spec_Quad Verif.Spec_High Verif.Proof_Quad Verif.Proof_Quad2 Verif.Proof_Quad3 Verif.Proof_Lob Verif.Proof_High Verif.Proof_High3 Verif.Prop_High
  Verif.Spec_Patch Verif.Model_Geom Verif.Proof_Geom Verif.Proof_Tri Verif.Model_Ref Verif.Model_Refine Verif.Model_Quad Verif.Model_Conn Verif.Proof_Conn Verif.Spec_Conn Verif.Proof_Neigh
  Verif.Model_High Verif.Model_Full Verif.Spec_Full Verif.Proof_Full Verif.Proof_Full2 Verif.Proof_Full3 Verif.Proof_Full4 Verif.Prop_Full Verif.Model_Patch.
Local Open Scope nat_scope.

(** C61, failure: there is no Lobatto table for orders above 9 *)
Theorem C61_order_large : forall p m N X, 10 <= p -> 0 < cm_cells m -> cdescribes m N X -> refine_mesh p m = Err Uninit.
Proof.
  intros p m N X Hp Hc HM. unfold refine_mesh, refine_cells, refine_points. cbv zeta. rewrite pts1_model. set (n1 := pts1 p).
  assert (Hn : 20 < n1) by (unfold n1, pts1; destruct p; lia).
  destruct (lobatto_nodes_1D_tmp (repeat None n1) (Z.of_nat n1)) as [a|er] eqn:Ea.
  2:{ unfold lobatto_nodes_1D_tmp in Ea. rewrite swage_same, lobatto_nodes_none in Ea by (right; lia). discriminate. }
  apply no_table in Ea; [|exact Hn]. subst a. cbn [bind].
  destruct (cm_cells m) as [|c] eqn:Ec; [lia|]. unfold loop at 1. cbn [loop_from].
  destruct (init_arrays_ok m N X 0 (repeat None 8) (repeat None 8) (repeat None 8) HM ltac:(lia) eq_refl eq_refl eq_refl) as (vx & vy & vz & -> & _). cbn [bind].
  assert (G : getu (repeat (@None R) n1) 0 = Err Uninit) by (unfold getu, get; rewrite nth_error_repeat by lia; reflexivity).
  destruct n1 as [|n]; [lia|]. unfold loop at 1. cbn [loop_from]. unfold loop at 1. cbn [loop_from]. unfold loop at 1. cbn [loop_from]. rewrite G. reflexivity.
Qed.
Print Assumptions C61_order_large.

(** C61, failure: a mesh without elements *)
Theorem C61_no_elements : forall p m N X, cm_cells m = 0 -> cdescribes m N X -> refine_mesh p m = Err Uninit.
Proof.
  intros p m N X Hc HM. unfold refine_mesh, refine_cells, refine_points. cbv zeta. rewrite pts1_model, Hc. set (n1 := pts1 p).
  assert (La : exists a, lobatto_nodes_1D_tmp (repeat None n1) (Z.of_nat n1) = Ok a).
  { destruct (le_lt_dec n1 20) as [H|H].
    - destruct (lob_array_full n1) as (a & -> & _); [split; [unfold n1, pts1; destruct p; lia|exact H]|eauto].
    - unfold lobatto_nodes_1D_tmp. rewrite swage_same, lobatto_nodes_none by (right; lia). eexists; reflexivity. }
  destruct La as (a & ->). cbn [bind loop loop_from]. unfold refine_keys.
  destruct (mesh_box_ok (10 ^ 16) m N X HM) as (mx & mn & -> & _). cbn [bind]. unfold last_dist. rewrite Hc. reflexivity.
Qed.
Print Assumptions C61_no_elements.

(** C61, failure: two corners of the last element at the same place *)
Theorem C61_collapsed_element : forall p m N X ne a b, p <= 9 -> cdescribes m N X -> cm_cells m = S ne ->
  a < 8 -> b < 8 -> a <> b -> (forall d, d < 3 -> X (N ne a) d = X (N ne b) d) -> refine_mesh p m = Err DivZero.
Proof.
  intros p m N X ne a b Hp HM Ec Ha Hb Ne Hx.
  assert (D0 : sqrt ((X (N ne a) 0%nat - X (N ne b) 0%nat) ^ 2 + (X (N ne a) 1%nat - X (N ne b) 1%nat) ^ 2 + (X (N ne a) 2%nat - X (N ne b) 2%nat) ^ 2) = 0%R).
  { rewrite !Hx by lia. rewrite !Rminus_eq_0. replace (0 ^ 2 + 0 ^ 2 + 0 ^ 2)%R with 0%R by ring. apply sqrt_0. }
  assert (HL : corner_spacing N X ne 0).
  { split; [intros; apply sqrt_pos|]. exists a, b. repeat (split; [assumption|]). symmetry. exact D0. }
  unfold refine_mesh, refine_cells. cbv zeta. destruct (refine_points_ok p m N X Hp HM) as (pts & -> & _). cbn [bind].
  unfold refine_keys. destruct (mesh_box_ok (10 ^ 16) m N X HM) as (mx & mn & -> & _). cbn [bind].
  rewrite (last_dist_spec _ m N X ne 0%R HM Ec HL).
  2:{ intros v Hv. exists a, b. repeat (split; [assumption|]). rewrite node_dist_eq, !Hv by (assumption || lia). rewrite D0. apply pow_le. lra. }
  cbn [bind]. cbv zeta. unfold Rdiv. rewrite Rmult_0_l. unfold high_bins, loop. cbn [loop_from bind]. rewrite rdiv_zero. reflexivity.
Qed.
Print Assumptions C61_collapsed_element.

(** C61, failure: build_connectivity reads past the end of an empty list if no two cells share a node *)
Theorem C61_isolated_cells : forall G ne gauss m N X, cdescribes m N X ->
  (forall c c', c < cm_cells m -> c' < cm_cells m -> c <> c' -> ~ touch 8 N c c') -> build_connectivity G ne gauss m = Err OOB.
Proof.
  intros G ne gauss m N X (HN & HX) No. unfold build_connectivity. cbv zeta.
  rewrite (read_flat 8 (cm_cells m) (cm_conn m) N) by (intros c l Hc Hl; apply (HN c l Hc Hl)). cbn [bind].
  assert (Mok : mesh_ok 8 (cm_cells m) (cm_nodes m) (flatten 8 (cm_cells m) N)) by (apply flatten_mesh; intros c l Hc Hl; apply (HN c l Hc Hl)).
  destruct (node_cell_spec _ _ _ _ Mok) as (a & Ea & _). rewrite Ea. cbn [bind].
  destruct (corner_spec _ _ _ _ a Mok Ea) as (b & Eb & _). rewrite Eb. cbn [bind].
  rewrite (cell_cell_isolated _ _ _ _ a Mok Ea); [reflexivity|].
  intros (c & d & Hc & Hd & Ne & Sh). apply flatten_share in Sh; try assumption. exact (No c d Hc Hd Ne Sh).
Qed.
Print Assumptions C61_isolated_cells.

(** ... so refine_mesh fails on a single element at order 0 *)
Theorem C61_single_element : forall m N X d, cdescribes m N X -> cm_cells m = 1 -> corner_spacing N X 0 d -> (0 < d <= 10 ^ 64)%R ->
  refine_mesh 0 m = Err OOB.
Proof.
  intros m N X d HM Ec HL Hd. destruct (C61_refined_mesh 0 m N X d 0 ltac:(lia) HM Ec HL Hd) as (r & nd & Er & H). cbv zeta in H.
  change (pts1 0) with 2 in H. change (Spec_Full.sub1 0) with 1 in H. change (1 * 1 ^ 3) with 1 in H. change (1 * 2 ^ 3) with 8 in H. change (2 ^ 3) with 8 in H.
  destruct H as (H1 & _ & Hnd & Hco & _ & _ & Hcell).
  unfold refine_mesh. rewrite Er. cbn [bind].
  set (CX := fun v i => match cm_coord (rf_mesh r) v i with Ok x => x | Err _ => 0%R end).
  rewrite (C61_isolated_cells _ _ _ _ (fun _ l => nd l) CX); [reflexivity| |intros c c'; rewrite H1; lia].
  split.
  - intros c l Hc Hl. rewrite H1 in Hc. replace c with 0 by lia. destruct (Hcell 0 0 0 0 ltac:(lia) ltac:(lia) ltac:(lia) ltac:(lia)) as (_ & _ & Q). destruct (Q l Hl) as (_ & Q').
    change (cell_id 0 0 0 0 0) with 0 in Q'. rewrite Q'. assert (CP : corner_pt 0 0 0 0 l = l) by (do 8 (destruct l as [|l]; [reflexivity|]); lia). rewrite CP, Nat.mul_0_l, Nat.add_0_l. split; [reflexivity|]. apply Hnd. lia.
  - intros v i Hv Hi. destruct (Hco v Hv) as (g & _ & _ & Q). unfold CX. rewrite (Q i Hi). reflexivity.
Qed.
Print Assumptions C61_single_element.

(** ---- examples ---- *)

(** the two boxes of Prop_High as a linear mesh *)
Definition cbrick (sx sy sz : R) : cmesh :=
  CMesh 12 2 (map (fun q => Some (brick_x sx sy sz (q / 3) (q mod 3))) (seq 0 36)) (map (fun q => Some (brick_n (q / 8) (q mod 8))) (seq 0 16)).
Lemma cbrick_describes sx sy sz : cdescribes (cbrick sx sy sz) brick_n (brick_x sx sy sz).
Proof. destruct (brick_describes sx sy sz) as (A & B). split; [exact A|exact B]. Qed.
(** one element with corner l at f l *)
Definition csingle (f : nat -> nat -> R) : cmesh :=
  CMesh 8 1 (map (fun q => Some (f (q / 3) (q mod 3))) (seq 0 24)) (map Some (seq 0 8)).
Lemma csingle_describes f : cdescribes (csingle f) (fun _ l => l) f.
Proof. destruct (single_describes 1 f) as (A & B). split; [exact A|exact B]. Qed.
Definition cube_x (l d : nat) : R := INR (corner_coord l d).
Lemma cube_boxes : box_elements 1 1 (fun _ l => l) cube_x (fun _ => 0%R) (fun _ => 1%R) (fun _ _ => 0%Z).
Proof.
  intros e i j k He Hi Hj Hk. assert (i = 0 \/ i = 1) as [-> | ->] by lia; assert (j = 0 \/ j = 1) as [-> | ->] by lia; assert (k = 0 \/ k = 1) as [-> | ->] by lia;
  cbn; repeat split; lra.
Qed.
Lemma cube_spacing : corner_spacing (fun _ l => l) cube_x 0 1.
Proof.
  assert (H := elem_spacing 0 0 (csingle cube_x) (fun _ l => l) cube_x (fun _ => 0%R) (fun _ => 1%R) (fun _ _ => 0%Z) 0 ltac:(lia) eq_refl cube_boxes ltac:(lia)).
  apply H; [intros; lra|lia].
Qed.

(** two boxes 1 x 2 x 3 meet the hypotheses of C61_boxes at any order from 1 to 5 (hence those of the other
    theorems); for order 0 they share a corner position *)
Example C61_boxes_nonvacuous : forall p, p <= 5 -> exists r C (nd : nat -> nat), refine_mesh p (cbrick 1 2 3) = Ok (r, C) /\ cm_cells (rf_mesh r) = 2 * Spec_Full.sub1 p ^ 3 /\
  (forall g, g < 2 * pts1 p ^ 3 -> node_in_gauss (rf_merged r) g = Ok (nd g)) /\
  (forall g g', 0 < g < 2 * pts1 p ^ 3 -> 0 < g' < 2 * pts1 p ^ 3 -> (nd g = nd g' <-> forall d, d < 3 -> tri_pos p brick_n (brick_x 1 2 3) g d = tri_pos p brick_n (brick_x 1 2 3) g' d)) /\
  adjacent 1 brick_n 0 0 1.
Proof.
  intros p Hp. set (s := fun d : nat => match d with 0 => 1%R | 1 => 2%R | _ => 3%R end).
  destruct (C61_boxes p 1 (cbrick 1 2 3) brick_n (brick_x 1 2 3) _ s _ 0 Hp (cbrick_describes 1 2 3) eq_refl (brick_boxes 1 2 3)) as (r & C & nd & CN & CX & pt & E & H).
  - lia.
  - intros d Hd. unfold s. destruct d as [|[|d]]; lra.
  - unfold s. assert (M1 := max1_pos p). lra.
  - intros _. exists 0, 1, 1, 0. repeat (split; [lia|]). intros d Hd. reflexivity.
  - cbv zeta in H. destruct H as (H1 & _ & H2 & _ & _ & H3 & _). exists r, C, nd. split; [exact E|]. split; [exact H1|]. split; [intros g Hg; apply (H2 g Hg)|]. split; [exact H3|].
    intros a b Ha Hb. assert (a = 0 \/ a = 1) as [-> | ->] by lia; assert (b = 0 \/ b = 1) as [-> | ->] by lia; reflexivity.
Qed.
(** a distorted element: corner 7 of the unit cube pulled to (2,2,2) *)
Example C61_refined_mesh_nonvacuous : forall p, p <= 9 -> exists d r, corner_spacing (fun _ l => l) (fun l i => if Nat.eqb l 7 then 2 else cube_x l i)%R 0 d /\
  (0 < d <= 10 ^ 64)%R /\ refine_cells p (csingle (fun l i => if Nat.eqb l 7 then 2 else cube_x l i)%R) = Ok r.
Proof.
  intros p Hp. set (f := fun l i => (if Nat.eqb l 7 then 2 else cube_x l i)%R).
  assert (HL : corner_spacing (fun _ l => l) f 0 1).
  { split.
    - intros a b Ha Hb Ne. rewrite <- sqrt_1 at 1. apply sqrt_le_1_alt. do 8 (destruct a as [|a]; [do 8 (destruct b as [|b]; [try (exfalso; lia); cbn; lra|]); lia|]). lia.
    - exists 0, 1. repeat (split; [lia|]). rewrite <- sqrt_1 at 1. f_equal. cbn. lra. }
  assert (Hd : (0 < 1 <= 10 ^ 64)%R) by (split; [lra|apply pow_R1_Rle; lra]).
  destruct (C61_refined_mesh p (csingle f) (fun _ l => l) f 1%R 0 Hp (csingle_describes f) eq_refl HL Hd) as (r & nd & Er & _). exists 1%R, r. auto.
Qed.
Example C61_order_large_nonvacuous : forall p, 10 <= p -> refine_mesh p (cbrick 1 1 1) = Err Uninit.
Proof. intros p Hp. apply (C61_order_large p (cbrick 1 1 1) brick_n (brick_x 1 1 1) Hp); [cbn; lia|exact (cbrick_describes 1 1 1)]. Qed.
Example C61_no_elements_nonvacuous : refine_mesh 3 (CMesh 0 0 [] []) = Err Uninit.
Proof. apply (C61_no_elements 3 _ (fun _ _ => 0) (fun _ _ => 0%R)); [reflexivity|]. split; cbn; intros; lia. Qed.
(** the unit cube with corner 7 moved onto corner 6 *)
Example C61_collapsed_element_nonvacuous : refine_mesh 2 (csingle (fun l => cube_x (if Nat.eqb l 7 then 6 else l))) = Err DivZero.
Proof. apply (C61_collapsed_element 2 _ (fun _ l => l) (fun l => cube_x (if Nat.eqb l 7 then 6 else l)) 0 6 7); try lia; [apply csingle_describes|reflexivity|intros; reflexivity]. Qed.
Example C61_single_element_nonvacuous : refine_mesh 0 (csingle cube_x) = Err OOB.
Proof. apply (C61_single_element _ (fun _ l => l) cube_x 1%R); [apply csingle_describes|reflexivity|exact cube_spacing|split; [lra|apply pow_R1_Rle; lra]]. Qed.

(** C61 does not extend to orders 6 to 9: on the unit cube the bins are wider than the first gap of the
    Lobatto points, so two corners of a cell, at different places, become one node *)
Lemma first_gap p : 6 <= p <= 9 -> (lob (pts1 p) 0 = -1 /\ -1 < lob (pts1 p) 1 /\ (lob (pts1 p) 1 + 1) / 2 * (7 * INR (Nat.max 1 p)) + 1 / 100 < 1)%R.
Proof.
  intros H. unfold lob. do 6 (destruct p as [|p]; [lia|]). destruct p as [|[|[|[|p]]]]; try lia; cbn [pts1 Nat.mul Nat.add Nat.max Z.of_nat Pos.of_succ_nat Pos.succ lobatto_nodes_tab INR].
  all: unfold decs, dec; cbn [nth map fst snd]; repeat match goal with |- context [(10 ^ Z.of_nat ?k)%Z] => let v := eval vm_compute in (10 ^ Z.of_nat k)%Z in change (10 ^ Z.of_nat k)%Z with v end; lra.
Qed.
Theorem C61_high_orders_refuted : forall p, 6 <= p <= 9 -> exists m N X r c v, cdescribes m N X /\ cm_cells m = 1 /\
  box_elements 1 1 N X (fun _ => 0%R) (fun _ => 1%R) (fun _ _ => 0%Z) /\
  refine_cells p m = Ok r /\ c = cell_id p 0 0 1 0 /\
  (tri_pos p N X (corner_pt p 0 1 0 0) 0 < tri_pos p N X (corner_pt p 0 1 0 1) 0)%R /\
  cm_node (rf_mesh r) c 0 = Ok v /\ cm_node (rf_mesh r) c 1 = Ok v.
Proof.
  intros p Hp. set (m := csingle cube_x). set (N := fun (_ l : nat) => l). assert (HM : cdescribes m N cube_x) by apply csingle_describes.
  assert (Hd : (0 < 1 <= 10 ^ 64)%R) by (split; [lra|apply pow_R1_Rle; lra]).
  destruct (refine_cells_ok p m N cube_x 1%R 0 ltac:(lia) HM eq_refl cube_spacing Hd) as (r & nd & own & mx & mn & Er & H). cbv zeta in H.
  destruct H as (H1 & H2 & Hb & Hba & Hpt & Hnd & Hown & H0 & Hn0 & Hkey & Hcell).
  assert (Ns : 12 <= Spec_Full.sub1 p) by (unfold Spec_Full.sub1, pts1; destruct p; lia). destruct (pts1_sub p) as (E1 & _). set (n1 := pts1 p) in *.
  destruct (first_gap p Hp) as (L0 & L1 & L2). fold n1 in L0, L1, L2.
  assert (C0 : corner_pt p 0 1 0 0 = n1) by (unfold corner_pt; fold n1; cbn; lia). assert (C1 : corner_pt p 0 1 0 1 = 1 + n1) by (unfold corner_pt; fold n1; cbn; lia).
  assert (Sq : n1 * n1 * n1 = n1 ^ 3) by (cbn [Nat.pow]; ring). assert (Big : 13 * 13 * n1 <= n1 ^ 3) by (rewrite <- Sq; nia).
  assert (P : forall i d, i < n1 -> d < 3 -> tri_pos p N cube_x (i + n1) d = match d with 0 => ((lob n1 i + 1) / 2)%R | 1 => ((lob n1 1 + 1) / 2)%R | _ => 0%R end).
  { intros i d Hi Hd'. assert (T := tri_pos_at p N cube_x 0 i 1 0 d). cbv zeta in T. fold n1 in T. specialize (T Hi ltac:(lia) ltac:(lia)).
    replace (0 * n1 ^ 3 + (i + 1 * n1 + 0 * n1 * n1)) with (i + n1) in T by ring. rewrite T.
    destruct (box_geo 1 1 N cube_x _ _ _ 0 (lob n1 i) (lob n1 1) (lob n1 0) ltac:(lia) cube_boxes ltac:(lia)) as (Q0 & Q1 & Q2).
    destruct d as [|[|[|d]]]; [rewrite Q0; lra|rewrite Q1; lra|rewrite Q2, L0; lra|lia]. }
  assert (P0 : forall d, d < 3 -> tri_pos p N cube_x n1 d = match d with 0 => 0%R | 1 => ((lob n1 1 + 1) / 2)%R | _ => 0%R end) by (intros d Hd'; assert (Q := P 0 d ltac:(lia) Hd'); rewrite Nat.add_0_l in Q; rewrite Q, L0; destruct d; [lra|reflexivity]).
  assert (P1 := fun d Hd' => P 1 d ltac:(lia) Hd'). cbv beta in P1.
  assert (Mn : mn 0 = 0%R).
  { assert (A0 := Hb 0 0 ltac:(cbn; lia) ltac:(lia)). unfold cube_x in A0 at 1. cbn in A0. assert (N0 : (0 <= mn 0%nat)%R); [|lra].
    destruct (Hba 0 ltac:(lia)) as [Q|(n & Hn & Q)]; [rewrite Q; apply pow_le; lra|]. rewrite Q. apply pos_INR. }
  destruct (Hcell 0 0 1 0 ltac:(lia) ltac:(lia) ltac:(lia) ltac:(lia)) as (_ & _ & Q). destruct (Q 0 ltac:(lia)) as (_ & Q0). destruct (Q 1 ltac:(lia)) as (_ & Q1).
  rewrite C0 in Q0. rewrite C1 in Q1. rewrite Nat.mul_0_l, Nat.add_0_l in Q0, Q1. fold n1 in Hkey.
  exists m, N, cube_x, r, (cell_id p 0 0 1 0), (nd n1). split; [exact HM|]. split; [reflexivity|]. split; [exact cube_boxes|]. split; [exact Er|]. split; [reflexivity|].
  rewrite C0, C1. split; [rewrite P0, (P1 0) by lia; lra|]. split; [exact Q0|]. rewrite Q1. f_equal. apply Hkey; [lia|lia|].
  assert (M1 := max1_pos p). set (w := (7 * INR (Nat.max 1 p))%R) in *.
  assert (Hw : (node_bin p 1 = / w)%R) by (unfold node_bin; fold w; lra). assert (W : (0 < / w)%R) by (apply Rinv_0_lt_compat; unfold w; lra).
  rewrite Hw. rewrite !refine_key_eq by exact W.
  assert (I := inv_pow_pos 14). assert (I' : (/ 10 ^ 14 < 1 / 10000)%R) by (replace (1 / 10000)%R with (/ 10 ^ 4)%R by lra; apply Rinv_lt_contravar; [apply Rmult_lt_0_compat; apply pow_lt; lra|apply Rlt_pow; [lra|lia]]).
  assert (Bx : forall d, d < 3 -> bin (/ w) mn (tri_pos p N cube_x (1 + n1)) d = bin (/ w) mn (tri_pos p N cube_x n1) d).
  { intros d Hd'. destruct d as [|d].
    - set (t := (/ 10 ^ 14)%R) in *. rewrite !bin_spec by (try exact W; rewrite ?P1, ?P0, ?Mn by lia; lra). fold t. rewrite P1, P0, Mn by lia.
      assert (Dv : forall x, (x / / w = x * w)%R) by (intros x; unfold Rdiv; rewrite Rinv_inv; reflexivity). rewrite !Dv.
      assert (Wb : (7 <= w <= 63)%R) by (unfold w; assert (INR (Nat.max 1 p) <= 9)%R by (replace 9%R with (INR 9) by (cbn; lra); apply le_INR; lia); lra).
      assert (T1 : (0 <= t * w)%R) by (apply Rmult_le_pos; lra). assert (T2 : (t * w < 1 / 100)%R) by (apply Rle_lt_trans with (t * 63)%R; [apply Rmult_le_compat_l; lra|lra]).
      rewrite !Rmult_plus_distr_r, !Rminus_0_r.
      assert (Z0 : (0 <= (lob n1 1 + 1) / 2 * w)%R) by (apply Rmult_le_pos; [lra|unfold w; lra]).
      rewrite (trunc_unique _ 0), (trunc_unique _ 0); [reflexivity|lra|lra|lra|lra].
    - unfold bin. rewrite P1, P0 by exact Hd'. reflexivity. }
  rewrite !Bx by lia. reflexivity.
Qed.
Print Assumptions C61_high_orders_refuted.
