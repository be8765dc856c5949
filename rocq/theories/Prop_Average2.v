(** C62 on a grid of boxes between two planes, and examples. *)
From Coq Require Import Reals List Arith ZArith Lra Lia Sorted Bool.
Import ListNotations.
Require Import Verif.Base Verif.NatSum Verif.RBase Verif.RSum Verif.Proof_High3 Verif.Spec_Patch Verif.Spec_High Verif.Spec_Full Verif.Model_Geom Verif.Model_Conn Verif.Model_Refine Verif.Model_Full
  Verif.Proof_Full Verif.Proof_Full3 Verif.Proof_Full4 Verif.Prop_High Verif.Prop_Full Verif.Prop_Full2 Verif.Model_Average Verif.Spec_Average Verif.Prop_Average Verif.Model_Patch.
Local Open Scope nat_scope.

(** a connected grid of boxes whose boundary conditions 0 and 3 are outer coordinate planes: the run converges,
    from any start, to the one and only field that is 10 on plane 0, 0 on plane 3 and its own average elsewhere *)
Theorem C62_two_planes : forall p ne m N X o s E D bcs d0 v0 d3 v3,
  p <= 5 -> cdescribes m N X -> cm_cells m = S ne -> box_elements 1 (S ne) N X o s E ->
  D < 3 -> (forall d, d < 3 -> (0 < s D <= s d)%R) -> (s D <= 7 * INR (Nat.max 1 p))%R -> (/ 10 ^ 6 <= s D)%R ->
  (p = 0 -> exists e l e' l', e < S ne /\ l < 8 /\ e' < S ne /\ l' < 8 /\ e <> e' /\ 0 < e + l /\ 0 < e' + l' /\ forall d, d < 3 -> X (N e l) d = X (N e' l') d) ->
  (forall e e', e < S ne -> e' < S ne -> (forall d, d < 3 -> E e d = E e' d) -> e = e') ->
  nth_error bcs 0 = Some (d0, v0) -> nth_error bcs 3 = Some (d3, v3) -> d0 < 3 -> d3 < 3 ->
  (exists e l, e < S ne /\ l < 8 /\ X (N e l) d0 = v0) -> (exists e l, e < S ne /\ l < 8 /\ X (N e l) d3 = v3) ->
  (forall e l, e < S ne -> l < 8 -> (v0 <= X (N e l) d0)%R) \/ (forall e l, e < S ne -> l < 8 -> (X (N e l) d0 <= v0)%R) ->
  (forall e l, e < S ne -> l < 8 -> (v3 <= X (N e l) d3)%R) \/ (forall e l, e < S ne -> l < 8 -> (X (N e l) d3 <= v3)%R) ->
  (forall e, e < S ne -> chained N X (S ne) (fun e l => X (N e l) d0 = v0 \/ X (N e l) d3 = v3) e) ->
  exists r C sets CN CX, refine_mesh p m = Ok (r, C) /\ generate_bcs (rf_mesh r) (cn_patches C) bcs = Ok sets /\ cdescribes (rf_mesh r) CN CX /\
    let sv := Solver (S ne) (num_sub_1d p) (num_g_pts_1d p ^ 3) (rf_maps r) (rf_mesh r) C sets in
    let nc := cm_cells (rf_mesh r) in let nn := cm_nodes (rf_mesh r) in
    (exists EC EN L Q, sound sv CN CX EC EN L Q /\ forall n, n < nn -> (on_patches (L 0) Q n <-> CX n d0 = v0) /\ (on_patches (L 3) Q n <-> CX n d3 = v3)) /\
    exists h, (forall n, n < nn -> (CX n d0 = v0 -> h n = 10%R) /\ (CX n d0 <> v0 -> CX n d3 = v3 -> h n = 0%R) /\
                 (CX n d0 <> v0 -> CX n d3 <> v3 -> h n = smoothed CN nc h n) /\ (0 <= h n <= 10)%R) /\
      (forall h', (forall n, n < nn -> (CX n d0 = v0 -> h' n = 10%R) /\ (CX n d0 <> v0 -> CX n d3 = v3 -> h' n = 0%R) /\
                 (CX n d0 <> v0 -> CX n d3 <> v3 -> h' n = smoothed CN nc h' n)) -> forall n, n < nn -> h' n = h n) /\
      forall st, length (ru_node st) = nn -> length (ru_mat st) = nc ->
        exists run_, (forall k, loop k (fun _ => advance sv) st = Ok (run_ k)) /\ forall n, n < nn -> Un_cv (fun k => val (ru_node (run_ k)) n) (h n).
Proof.
  intros p ne m N X o s E D bcs d0 v0 d3 v3 Hp HM Ec HB HD Hs Hbig Hwide H0e HE E0 E3 Hd0 Hd3 At0 At3 Si0 Si3 HR.
  assert (Hbc : 4 <= length bcs) by (assert (3 < length bcs) by (apply nth_error_Some; congruence); lia).
  destruct (C62_boxes p ne m N X o s E D bcs Hp HM Ec HB HD Hs Hbig H0e Hbc) as (r & C & sets & CN & CX & EC & EN & L & Q & pt & Er & Eb & H). cbv zeta in H.
  destruct H as (HS & _ & HT & HX & _ & _ & HL & HPl). set (sv := Solver _ _ _ _ _ _ _) in *.
  exists r, C, sets, CN, CX. split; [exact Er|]. split; [exact Eb|]. split; [exact (ms_cells _ _ _ (so_mesh _ _ _ _ _ _ _ HS))|]. cbv zeta. fold sv.
  set (n1 := pts1 p) in *. set (ns := Spec_Full.sub1 p) in *. set (ng := n1 ^ 3) in *. assert (P12 := pts1_sub p). fold n1 ns in P12. destruct P12 as (P1 & P2).
  set (cpt := fun l => corner_coord l 0 * ns + corner_coord l 1 * ns * n1 + corner_coord l 2 * ns * n1 * n1).
  assert (Cl : forall l, cpt l < ng).
  { intros l. unfold cpt, ng. assert (A0 := corner_bit l 0). assert (A1 := corner_bit l 1). assert (A2 := corner_bit l 2). apply Proof_High.grid3_lt; nia. }
  assert (Cp : forall e l, l < 8 -> 0 < e + l -> 0 < e * ng + cpt l).
  { intros e l Hl H. assert (0 < ng) by (specialize (Cl 0); lia). destruct (Nat.eq_dec e 0) as [->|]; [|nia]. cbn [Nat.mul Nat.add] in *. unfold cpt.
    do 8 (destruct l as [|l]; [cbn; nia|]). lia. }
  assert (Cx : forall e l d, e < S ne -> l < 8 -> d < 3 -> tri_pos p N X (e * ng + cpt l) d = X (N e l) d).
  { intros e l d He Hl Hd. assert (A := fun d => corner_bit l d). assert (T := tri_box p ne m N X o s E D Hp Ec HB HD e (corner_coord l 0 * ns) (corner_coord l 1 * ns) (corner_coord l 2 * ns) d He). fold n1 ng in T.
    assert (A0 := A 0). assert (A1 := A 1). assert (A2 := A 2). unfold cpt. rewrite T by nia. rewrite (box_corner p ne m N X o s E D Hp Ec HB HD) by assumption.
    replace (tri (corner_coord l 0 * ns) (corner_coord l 1 * ns) (corner_coord l 2 * ns) d) with (corner_coord l d * ns) by (destruct d as [|[|[|?]]]; [reflexivity..|lia]).
    destruct (gap_facts_ok p ltac:(lia)) as (F0 & F1 & _). fold n1 ns in F0, F1. unfold place, shifted. fold n1. specialize (A d).
    destruct (corner_coord l d) as [|[|?]]; [rewrite Nat.mul_0_l, F0|rewrite Nat.mul_1_l, F1|lia]; cbn [INR]; field. }
  assert (P0 := HPl HE Hwide 0 d0 v0 E0 Hd0 At0 Si0). assert (P3 := HPl HE Hwide 3 d3 v3 E3 Hd3 At3 Si3).
  assert (ENlt : forall e l, e < S ne -> l < ng -> EN e l < cm_nodes (rf_mesh r)).
  { intros e l He Hl. destruct (so_elems _ _ _ _ _ _ _ HS) as [_ _ H3 _]. apply (H3 e l); cbn [sv_elems sv_G sv]; [exact He|]. rewrite pts1_model. exact Hl. }
  assert (RE : forall e, e < S ne -> reach EN (S ne) ng (fun n => on_patches (L 0) Q n \/ on_patches (L 3) Q n) e).
  { intros e He. assert (R := HR e He). clear He. induction R as [e l He Hl F|e e' l l' He Hl Hl' Z Z' G R IH].
    - apply (reach_here _ _ _ _ e (cpt l) He (Cl l)). destruct F as [F|F]; [left; apply P0|right; apply P3]; try (apply ENlt; [exact He|apply Cl]).
      + rewrite (HT e (cpt l) d0 He (Cl l) Hd0), Cx by assumption. exact F.
      + rewrite (HT e (cpt l) d3 He (Cl l) Hd3), Cx by assumption. exact F.
    - apply (reach_next _ _ _ _ e e' (cpt l) (cpt l') He (Cl l) (Cl l')); [|exact IH]. assert (He' : e' < S ne) by (inversion R; assumption).
      apply HX; try assumption; try apply Cl; try (apply Cp; assumption). intros d Hd. fold ng. rewrite !Cx by assumption. apply G. exact Hd. }
  destruct (C62_converges sv CN CX EC EN L Q HS (HL RE)) as (h & H1 & Hu & H2). split; [exists EC, EN, L, Q; split; [exact HS|]; intros n Hn; split; [exact (P0 n Hn)|exact (P3 n Hn)]|]. exists h. split; [|split; [|exact H2]].
  2:{ intros h' H'. apply Hu. intros n Hn. destruct (H' n Hn) as (B1 & B2 & B3). unfold cycle_result. rewrite (P0 n Hn), (P3 n Hn). auto. }
  intros n Hn. destruct (H1 n Hn) as ((B1 & B2 & B3) & B4). rewrite (P0 n Hn), (P3 n Hn) in B2, B3. rewrite (P0 n Hn) in B1. auto.
Qed.
Print Assumptions C62_two_planes.

(** two boxes of unit width along x, boundaries of the shipped input *)
Definition shipped_bcs : list (nat * R) := [(0, 0%R); (1, 0%R); (2, 0%R); (0, 2%R); (1, 2%R); (2, 2%R)].
Example C62_two_planes_nonvacuous : forall p, p <= 5 -> exists r C sets h, refine_mesh p (cbrick 1 2 3) = Ok (r, C) /\ generate_bcs (rf_mesh r) (cn_patches C) shipped_bcs = Ok sets /\
  let sv := Solver 2 (num_sub_1d p) (num_g_pts_1d p ^ 3) (rf_maps r) (rf_mesh r) C sets in
  forall st, length (ru_node st) = cm_nodes (rf_mesh r) -> length (ru_mat st) = cm_cells (rf_mesh r) ->
    exists run_, (forall k, loop k (fun _ => advance sv) st = Ok (run_ k)) /\ forall n, n < cm_nodes (rf_mesh r) -> Un_cv (fun k => val (ru_node (run_ k)) n) (h n).
Proof.
  intros p Hp. set (s := fun d : nat => match d with 0 => 1%R | 1 => 2%R | _ => 3%R end).
  assert (Two : forall e, e < 2 -> e = 0 \/ e = 1) by lia.
  destruct (C62_two_planes p 1 (cbrick 1 2 3) brick_n (brick_x 1 2 3) _ s _ 0 shipped_bcs 0 0%R 0 2%R Hp (cbrick_describes 1 2 3) eq_refl (brick_boxes 1 2 3)) as (r & C & sets & CN & CX & Er & Eb & _ & _ & h & _ & _ & H).
  - lia.
  - intros d Hd. unfold s. destruct d as [|[|d]]; lra.
  - unfold s. assert (M1 := max1_pos p). lra.
  - unfold s. lra.
  - intros _. exists 0, 1, 1, 0. repeat (split; [lia|]). intros d Hd. reflexivity.
  - intros e e' He He' G. specialize (G 0 ltac:(lia)). destruct (Two e He) as [-> | ->], (Two e' He') as [-> | ->]; (reflexivity || (cbn in G; discriminate)).
  - reflexivity.
  - reflexivity.
  - lia.
  - lia.
  - exists 0, 0. repeat (split; [lia|]). cbn. lra.
  - exists 1, 1. repeat (split; [lia|]). cbn. lra.
  - left. intros e l He Hl. destruct (Two e He) as [-> | ->]; do 8 (destruct l as [|l]; [cbn; lra|]); lia.
  - right. intros e l He Hl. destruct (Two e He) as [-> | ->]; do 8 (destruct l as [|l]; [cbn; lra|]); lia.
  - intros e He. destruct (Two e He) as [-> | ->].
    + apply (chained_here _ _ _ _ 0 0); [lia|lia|]. left. cbn. lra.
    + apply (chained_next _ _ _ _ 1 0 0 1); try lia; [intros d Hd; reflexivity|]. apply (chained_here _ _ _ _ 0 0); [lia|lia|]. left. cbn. lra.
  - exists r, C, sets, h. auto.
Qed.
(** the solver hypotheses of the theorems above hold for two boxes at order 1 *)
Example C62_sound_nonvacuous : exists sv N X EC EN L Q, sound sv N X EC EN L Q /\ sv_elems sv = 2 /\ sv_ns sv = 2 /\ cm_cells (sv_mesh sv) = 2 * 2 ^ 3.
Proof.
  set (s := fun d : nat => match d with 0 => 1%R | 1 => 2%R | _ => 3%R end).
  destruct (C62_boxes 1 1 (cbrick 1 2 3) brick_n (brick_x 1 2 3) _ s _ 0 shipped_bcs ltac:(lia) (cbrick_describes 1 2 3) eq_refl (brick_boxes 1 2 3)) as (r & C & sets & CN & CX & EC & EN & L & Q & pt & Er & _ & HS & _).
  - lia.
  - intros d Hd. unfold s. destruct d as [|[|d]]; lra.
  - unfold s. cbn. lra.
  - lia.
  - cbn. lia.
  - eexists _, CN, CX, EC, EN, L, Q. split; [exact HS|]. split; [reflexivity|]. split; [reflexivity|]. cbn [sv_mesh].
    destruct (C61_boxes 1 1 (cbrick 1 2 3) brick_n (brick_x 1 2 3) _ s _ 0 ltac:(lia) (cbrick_describes 1 2 3) eq_refl (brick_boxes 1 2 3)) as (r' & C' & nd & CN' & CX' & pt' & Er' & H).
    + lia.
    + intros d Hd. unfold s. destruct d as [|[|d]]; lra.
    + unfold s. cbn. lra.
    + lia.
    + rewrite Er in Er'. injection Er' as <- <-. exact (proj1 H).
Qed.
