(** C80 on grids of boxes; meshes on which rounding leaves [0, 10]. *)
From Coq Require Import Reals List Arith ZArith Lra Lia Bool.
Import ListNotations.
Require Import Verif.Base Verif.NatSum Verif.RBase Verif.RSum Verif.Spec_Patch Verif.Spec_High Verif.Spec_Full Verif.Model_Conn Verif.Model_Refine Verif.Model_Full Verif.Model_Average
  Verif.Proof_Full Verif.Proof_Full3 Verif.Proof_Full4 Verif.Prop_High Verif.Prop_Full Verif.Prop_Full2 Verif.Spec_Float Verif.Spec_Average Verif.Proof_Average Verif.Proof_Average5 Verif.Prop_Average Verif.Prop_Average2
  Verif.Model_FloatAverage Verif.Spec_FloatAverage Verif.Proof_FloatAverage Verif.Proof_FloatAverage3 Verif.Prop_FloatAverage Verif.Proof_FloatAverage4 Verif.Model_Patch.
Local Open Scope nat_scope.

(** where no two cells have a node as the same corner, at most eight cell corners meet at it *)
Theorem C80_counts : forall N nc n, (forall c c' l, c < nc -> c' < nc -> l < 8 -> N c l = N c' l -> c = c') -> corner_count N nc n <= 8.
Proof. exact counts_8. Qed.
Print Assumptions C80_counts.

(** the solver of a grid of equal boxes, no two at the same place (see C62_boxes), is such a mesh.  The binary64
    run of the example then stays in [0, 10], never falls, and stands still after finitely many cycles; if every
    element is linked through shared nodes to one with a node in set 0 or 3, the rest is close to the exact one *)
Theorem C80_boxes : forall p ne m N X o s E D bcs,
  p <= 5 -> cdescribes m N X -> cm_cells m = S ne -> box_elements 1 (S ne) N X o s E ->
  D < 3 -> (forall d, d < 3 -> (0 < s D <= s d)%R) -> (s D <= 7 * INR (Nat.max 1 p))%R ->
  (p = 0 -> exists e l e' l', e < S ne /\ l < 8 /\ e' < S ne /\ l' < 8 /\ e <> e' /\ 0 < e + l /\ 0 < e' + l' /\ forall d, d < 3 -> X (N e l) d = X (N e' l') d) ->
  (forall e e', e < S ne -> e' < S ne -> (forall d, d < 3 -> E e d = E e' d) -> e = e') -> 4 <= length bcs ->
  exists r C sets CN CX EC EN L Q, refine_mesh p m = Ok (r, C) /\ generate_bcs (rf_mesh r) (cn_patches C) bcs = Ok sets /\
    let sv := Solver (S ne) (num_sub_1d p) (num_g_pts_1d p ^ 3) (rf_maps r) (rf_mesh r) C sets in let nc := cm_cells (rf_mesh r) in let nn := cm_nodes (rf_mesh r) in
    sound sv CN CX EC EN L Q /\ (forall n, n < nn -> corner_count CN nc n <= 8) /\
    (forall node st, apply_boundary sv (repeat 0%R nn) = Ok node -> ru_node st = node -> length (ru_mat st) = nc ->
       exists run_ K r, (forall k, loop k (fun _ => advancef binary64 sv) st = Ok (run_ k)) /\
         (forall k n, n < nn -> (0 <= val (ru_node (run_ k)) n <= val (ru_node (run_ (S k))) n)%R /\ (val (ru_node (run_ (S k))) n <= 10)%R) /\
         (forall k n, K <= k -> n < nn -> val (ru_node (run_ k)) n = r n) /\
         ((forall e, e < S ne -> reach EN (S ne) (pts1 p ^ 3) (fun n => on_patches (L 0) Q n \/ on_patches (L 3) Q n) e) ->
          exists w c, drops CN nn nc L Q w c) /\
         ((forall e, e < S ne -> reach EN (S ne) (pts1 p ^ 3) (fun n => on_patches (L 0) Q n \/ on_patches (L 3) Q n) e) ->
          forall w c h, drops CN nn nc L Q w c -> (gamma u64 18 * c <= / 2)%R -> (forall n, n < nn -> cycle_result CN nc L Q h h n) ->
          forall n, n < nn -> (Rabs (r n - h n) <= 20 * gamma u64 18 * w n)%R)).
Proof.
  intros p ne m N X o s E D bcs Hp HM Ec HB HD Hs Hbig H0e HE Hbc.
  destruct (C62_boxes p ne m N X o s E D bcs Hp HM Ec HB HD Hs Hbig H0e Hbc) as (r & C & sets & CN & CX & EC & EN & L & Q & pt & Er & Eb & H). cbv zeta in H.
  destruct H as (HS & _ & HT & _ & _ & HCE & HL & _). set (sv := Solver _ _ _ _ _ _ _) in *.
  exists r, C, sets, CN, CX, EC, EN, L, Q. split; [exact Er|]. split; [exact Eb|]. cbv zeta. fold sv. split; [exact HS|].
  set (nn := cm_nodes (rf_mesh r)). set (nc := cm_cells (rf_mesh r)).
  assert (Enc : nc = S ne * (Spec_Full.sub1 p * Spec_Full.sub1 p * Spec_Full.sub1 p)).
  { destruct (C61_boxes p ne m N X o s E D Hp HM Ec HB HD Hs Hbig H0e) as (r' & C' & nd & CN' & CX' & pt' & Er' & H). rewrite Er in Er'. injection Er' as <- <-. cbv zeta in H. destruct H as (H & _). unfold nc. rewrite H. cbn [Nat.pow]. ring. }
  assert (H8 : forall n, n < nn -> corner_count CN nc n <= 8).
  { intros n _. apply counts_8. intros c c' l Hc Hc' Hl. rewrite Enc in Hc, Hc'. apply (one_cell p ne m N X o s E D Hp Ec HB HD Hs Hbig HE CN CX EN HT HCE c c' l Hc Hc' Hl). }
  split; [exact H8|]. intros node st Ea En Hm. destruct (C80_lists sv CN CX (so_mesh _ _ _ _ _ _ _ HS)) as (A & HA & _).
  destruct (C80_settles sv CN CX EC EN L Q A node st HS HA H8 Ea En Hm) as (K & rest & _ & R2 & R3).
  set (run_ := fun k => match loop k (fun _ => advancef binary64 sv) st with Ok s' => s' | Err _ => st end).
  assert (Er1 : forall k, loop k (fun _ => advancef binary64 sv) st = Ok (run_ k)).
  { intros k. destruct (C80_rising sv CN CX EC EN L Q node st k HS H8 Ea En Hm) as (s1 & _ & E1 & _). unfold run_. rewrite E1. reflexivity. }
  exists run_, K, rest. split; [exact Er1|]. split; [|split; [|split]].
  - intros k n Hn. destruct (C80_rising sv CN CX EC EN L Q node st k HS H8 Ea En Hm) as (s1 & s2 & E1 & E2 & V). assert (E3 := Er1 (S k)). rewrite Proof_File.loop_succ, E1 in E3. change (advancef binary64 sv s1 = Ok (run_ (S k))) in E3. rewrite E2 in E3. injection E3 as <-. rewrite Er1 in E1. injection E1 as <-. apply V. exact Hn.
  - intros k n Hk Hn. destruct (R2 k Hk) as (s' & E' & V). rewrite Er1 in E'. injection E' as <-. apply V. exact Hn.
  - intros HR. apply C80_linked; [apply (nodes_in sv CN CX EC EN L Q HS)|]. apply HL. exact HR.
  - intros HR w c h Hw Hc Hh. apply (R3 w c h Hw Hc Hh). apply HL. exact HR.
Qed.
Print Assumptions C80_boxes.

(** two boxes of unit width along x at any order up to 5, boundaries of the shipped input *)
Lemma brick_solver : forall p, p <= 5 -> exists r C sets CN CX EC EN L Q, refine_mesh p (cbrick 1 2 3) = Ok (r, C) /\ generate_bcs (rf_mesh r) (cn_patches C) shipped_bcs = Ok sets /\
  let sv := Solver 2 (num_sub_1d p) (num_g_pts_1d p ^ 3) (rf_maps r) (rf_mesh r) C sets in let nn := cm_nodes (rf_mesh r) in let nc := cm_cells (rf_mesh r) in
  sound sv CN CX EC EN L Q /\ nc = 2 * (Spec_Full.sub1 p * Spec_Full.sub1 p * Spec_Full.sub1 p) /\ (forall n, n < nn -> corner_count CN nc n <= 8) /\
  (forall n, n < nn -> linked CN nc (fun n => on_patches (L 0) Q n \/ on_patches (L 3) Q n) n) /\
  (exists n, n < nn /\ on_patches (L 0) Q n) /\
  (forall n, n < nn -> (on_patches (L 0) Q n <-> CX n 0 = 0%R) /\ (on_patches (L 3) Q n <-> CX n 0 = 2%R)) /\
  (forall n, n < nn -> exists e l, e < 2 /\ l < pts1 p ^ 3 /\ EN e l = n) /\
  (forall e i j k, e < 2 -> i < pts1 p -> j < pts1 p -> k < pts1 p -> CX (EN e (i + j * pts1 p + k * pts1 p * pts1 p)) 0 = (INR e + (lob (pts1 p) i + 1) / 2)%R) /\
  (forall e i j k c, e < 2 -> i < Spec_Full.sub1 p -> j < Spec_Full.sub1 p -> k < Spec_Full.sub1 p -> c < 8 -> CN (cell_id p e i j k) c = EN e (corner_pt p i j k c)).
Proof.
  intros p Hp. set (s := fun d : nat => match d with 0 => 1%R | 1 => 2%R | _ => 3%R end).
  assert (Two : forall e, e < 2 -> e = 0 \/ e = 1) by lia. assert (Hs : forall d, d < 3 -> (0 < s 0%nat <= s d)%R) by (intros d Hd; unfold s; destruct d as [|[|d]]; lra).
  assert (Hbig : (s 0%nat <= 7 * INR (Nat.max 1 p))%R) by (unfold s; assert (M1 := max1_pos p); lra).
  assert (H0e : p = 0 -> exists e l e' l', e < 2 /\ l < 8 /\ e' < 2 /\ l' < 8 /\ e <> e' /\ 0 < e + l /\ 0 < e' + l' /\ forall d, d < 3 -> brick_x 1 2 3 (brick_n e l) d = brick_x 1 2 3 (brick_n e' l') d).
  { intros _. exists 0, 1, 1, 0. repeat (split; [lia|]). intros d Hd. reflexivity. }
  set (E := fun e d : nat => match d with 0 => Z.of_nat e | _ => 0%Z end).
  assert (HE : forall e e', e < 2 -> e' < 2 -> (forall d, d < 3 -> E e d = E e' d) -> e = e').
  { intros e e' He He' G. specialize (G 0 ltac:(lia)). destruct (Two e He) as [-> | ->], (Two e' He') as [-> | ->]; (reflexivity || (cbn in G; discriminate)). }
  assert (HB := brick_boxes 1 2 3 : box_elements 1 2 brick_n (brick_x 1 2 3) (fun _ => 0%R) s E).
  destruct (C62_boxes p 1 (cbrick 1 2 3) brick_n (brick_x 1 2 3) _ s E 0 shipped_bcs Hp (cbrick_describes 1 2 3) eq_refl HB ltac:(lia) Hs Hbig H0e ltac:(cbn; lia)) as (r & C & sets & CN & CX & EC & EN & L & Q & pt & Er & Eb & H). cbv zeta in H.
  destruct H as (HS & _ & HT & _ & _ & HCE & HL & HPl). set (sv := Solver _ _ _ _ _ _ _) in *.
  assert (Wide : (/ 10 ^ 6 <= s 0%nat)%R) by (unfold s; lra).
  set (n1 := pts1 p) in *. set (ng := n1 ^ 3) in *. assert (P12 := pts1_sub p). fold n1 in P12. destruct P12 as (P1 & P2).
  assert (ENlt : forall e l, e < 2 -> l < ng -> EN e l < cm_nodes (rf_mesh r)).
  { intros e l He Hl. destruct (so_elems _ _ _ _ _ _ _ HS) as [_ _ H3 _]. apply (H3 e l); cbn [sv_elems sv_G sv]; [exact He|]. rewrite pts1_model. exact Hl. }
  assert (Zng : 0 < ng) by (unfold ng; cbn [Nat.pow]; nia). assert (Lng : n1 - 1 < ng) by (unfold ng; cbn [Nat.pow]; nia).
  assert (P0 : on_patches (L 0) Q (EN 0 0)).
  { apply (HPl HE Wide 0 0 0%R); try lia; [reflexivity| | |apply ENlt; lia|].
    - exists 0, 0. repeat (split; [lia|]). cbn. lra.
    - left. intros e l He Hl. destruct (Two e He) as [-> | ->]; do 8 (destruct l as [|l]; [cbn; lra|]); lia.
    - rewrite HT by lia. assert (T := tri_box p 1 (cbrick 1 2 3) brick_n (brick_x 1 2 3) _ s E 0 Hp eq_refl HB ltac:(lia) 0 0 0 0 0 ltac:(lia)). fold n1 ng in T. cbn [Nat.mul Nat.add] in T |- *. rewrite T by lia.
      destruct (gap_facts_ok p ltac:(lia)) as (F0 & F1 & _). fold n1 in F0. unfold place, shifted. fold n1. cbn [tri]. rewrite F0. unfold E, s. cbn. lra. }
  assert (P3 : on_patches (L 3) Q (EN 1 (n1 - 1))).
  { apply (HPl HE Wide 3 0 2%R); try lia; [reflexivity| | |apply ENlt; lia|].
    - exists 1, 1. repeat (split; [lia|]). cbn. lra.
    - right. intros e l He Hl. destruct (Two e He) as [-> | ->]; do 8 (destruct l as [|l]; [cbn; lra|]); lia.
    - rewrite HT by lia. assert (T := tri_box p 1 (cbrick 1 2 3) brick_n (brick_x 1 2 3) _ s E 0 Hp eq_refl HB ltac:(lia) 1 (n1 - 1) 0 0 0 ltac:(lia)). fold n1 ng in T.
      replace (n1 - 1 + 0 * n1 + 0 * n1 * n1) with (n1 - 1) in T by lia. rewrite T by lia.
      destruct (gap_facts_ok p ltac:(lia)) as (F0 & F1 & _). fold n1 in F1. unfold place, shifted. fold n1. cbn [tri]. change (n1 - 1) with (Spec_Full.sub1 p). rewrite F1. unfold E, s. cbn. lra. }
  assert (RE : forall e, e < 2 -> reach EN 2 ng (fun n => on_patches (L 0) Q n \/ on_patches (L 3) Q n) e).
  { intros e He. destruct (Two e He) as [-> | ->]; [apply (reach_here _ _ _ _ 0 0); [lia|exact Zng|left; exact P0]|apply (reach_here _ _ _ _ 1 (n1 - 1)); [lia|exact Lng|right; exact P3]]. }
  assert (Enc : cm_cells (rf_mesh r) = 2 * (Spec_Full.sub1 p * Spec_Full.sub1 p * Spec_Full.sub1 p)).
  { destruct (C61_boxes p 1 (cbrick 1 2 3) brick_n (brick_x 1 2 3) _ s E 0 Hp (cbrick_describes 1 2 3) eq_refl HB ltac:(lia) Hs Hbig H0e) as (r' & C' & nd & CN' & CX' & pt' & Er' & H). rewrite Er in Er'. injection Er' as <- <-. cbv zeta in H. destruct H as (H & _). rewrite H. cbn [Nat.pow]. ring. }
  assert (H8 : forall n, n < cm_nodes (rf_mesh r) -> corner_count CN (cm_cells (rf_mesh r)) n <= 8).
  { intros n _. apply counts_8. intros c c' l Hc Hc' Hl. rewrite Enc in Hc, Hc'. apply (one_cell p 1 (cbrick 1 2 3) brick_n (brick_x 1 2 3) _ s E 0 Hp eq_refl HB ltac:(lia) Hs Hbig HE CN CX EN HT HCE c c' l Hc Hc' Hl). }
  exists r, C, sets, CN, CX, EC, EN, L, Q. split; [exact Er|]. split; [exact Eb|]. cbv zeta. fold sv. split; [exact HS|]. split; [exact Enc|]. split; [exact H8|]. split; [exact (HL RE)|].
  split; [exists (EN 0 0); split; [apply ENlt; lia|exact P0]|]. split; [|split; [|split; [|exact HCE]]].
  - intros n Hn. split.
    + apply (HPl HE Wide 0 0 0%R); try lia; [reflexivity| |].
      * exists 0, 0. repeat (split; [lia|]). cbn. lra.
      * left. intros e l He Hl. destruct (Two e He) as [-> | ->]; do 8 (destruct l as [|l]; [cbn; lra|]); lia.
    + apply (HPl HE Wide 3 0 2%R); try lia; [reflexivity| |].
      * exists 1, 1. repeat (split; [lia|]). cbn. lra.
      * right. intros e l He Hl. destruct (Two e He) as [-> | ->]; do 8 (destruct l as [|l]; [cbn; lra|]); lia.
  - intros n Hn. destruct (so_elems _ _ _ _ _ _ _ HS) as [_ _ _ H4]. destruct (H4 n Hn) as (e & l & He & Hl & Q4). exists e, l. split; [exact He|]. split; [|exact Q4]. cbn [sv_G sv] in Hl. rewrite pts1_model in Hl. exact Hl.
  - intros e i j k He Hi Hj Hk. fold n1. assert (T := tri_box p 1 (cbrick 1 2 3) brick_n (brick_x 1 2 3) _ s E 0 Hp eq_refl HB ltac:(lia) e i j k 0 He). fold n1 ng in T.
    assert (G : i + j * n1 + k * n1 * n1 < ng) by (unfold ng; apply Proof_High.grid3_lt; assumption).
    rewrite HT by (assumption || lia). fold n1. rewrite T by (assumption || lia). unfold place, shifted. fold n1. cbn [tri]. unfold E, s. rewrite <- INR_IZR_INZ. ring.
Qed.
Example C80_boxes_nonvacuous : forall p, p <= 5 -> exists r C sets CN CX EC EN L Q w c, refine_mesh p (cbrick 1 2 3) = Ok (r, C) /\ generate_bcs (rf_mesh r) (cn_patches C) shipped_bcs = Ok sets /\
  let sv := Solver 2 (num_sub_1d p) (num_g_pts_1d p ^ 3) (rf_maps r) (rf_mesh r) C sets in let nn := cm_nodes (rf_mesh r) in let nc := cm_cells (rf_mesh r) in
  sound sv CN CX EC EN L Q /\ (forall n, n < nn -> corner_count CN nc n <= 8) /\ drops CN nn nc L Q w c /\
  exists node run_ K rest, apply_boundary sv (repeat 0%R nn) = Ok node /\
    (forall k, loop k (fun _ => advancef binary64 sv) (Run node (repeat 0%R nc) [] 0 (repeat 0%R 250) (10 ^ 8)%R 0%R) = Ok (run_ k)) /\
    (forall k n, K <= k -> n < nn -> val (ru_node (run_ k)) n = rest n) /\ exists n, n < nn /\ rest n = 10%R.
Proof.
  intros p Hp. destruct (brick_solver p Hp) as (r & C & sets & CN & CX & EC & EN & L & Q & Er & Eb & H). cbv zeta in H. destruct H as (HS & _ & H8 & HL & (n0 & Hn0 & P0) & _). set (sv := Solver _ _ _ _ _ _ _) in *.
  destruct (C80_linked CN (cm_nodes (rf_mesh r)) (cm_cells (rf_mesh r)) L Q (nodes_in sv CN CX EC EN L Q HS) HL) as (w & c & Hw).
  exists r, C, sets, CN, CX, EC, EN, L, Q, w, c. split; [exact Er|]. split; [exact Eb|]. cbv zeta. fold sv. split; [exact HS|]. split; [exact H8|]. split; [exact Hw|].
  destruct (apply_boundary_ok sv L Q (repeat 0%R (cm_nodes (rf_mesh r))) (so_sets _ _ _ _ _ _ _ HS) (repeat_length _ _)) as (node & Ea & Ln & Hb).
  destruct (C80_lists sv CN CX (so_mesh _ _ _ _ _ _ _ HS)) as (A & HA & _).
  set (st := Run node (repeat 0%R (cm_cells (rf_mesh r))) [] 0 (repeat 0%R 250) (10 ^ 8)%R 0%R).
  destruct (C80_settles sv CN CX EC EN L Q A node st HS HA H8 Ea eq_refl (repeat_length _ _)) as (K & rest & R1 & R2 & _).
  exists node, (fun k => match loop k (fun _ => advancef binary64 sv) st with Ok s' => s' | Err _ => st end), K, rest. split; [exact Ea|].
  assert (Er1 : forall k, loop k (fun _ => advancef binary64 sv) st = Ok match loop k (fun _ => advancef binary64 sv) st with Ok s' => s' | Err _ => st end).
  { intros k. destruct (C80_rising sv CN CX EC EN L Q node st k HS H8 Ea eq_refl (repeat_length _ _)) as (s1 & _ & E1 & _). rewrite E1. reflexivity. }
  split; [exact Er1|]. split.
  - intros k n Hk Hn. destruct (R2 k Hk) as (s' & E' & V). rewrite E'. apply V. exact Hn.
  - exists n0. split; [exact Hn0|]. apply (R1 n0 Hn0). exact P0.
Qed.

(** the error bound for all cycles at once: two boxes at order 0, where the middle layer has w = 3 *)
Example C80_uniform_nonvacuous : exists sv N X EC EN L Q w, sound sv N X EC EN L Q /\ cm_cells (sv_mesh sv) = 2 /\ drops N (cm_nodes (sv_mesh sv)) 2 L Q w 3 /\
  (forall n, n < cm_nodes (sv_mesh sv) -> corner_count N 2 n <= 8) /\ (gamma u64 18 * 3 <= / 2)%R /\
  forall k s, length (ru_node s) = cm_nodes (sv_mesh sv) -> length (ru_mat s) = 2 -> (forall n, n < cm_nodes (sv_mesh sv) -> (Rabs (val (ru_node s) n) <= 10)%R) ->
  exists s1 s2, loop k (fun _ => advancef binary64 sv) s = Ok s1 /\ loop k (fun _ => advance sv) s = Ok s2 /\
    forall n, n < cm_nodes (sv_mesh sv) -> (Rabs (val (ru_node s1) n - val (ru_node s2) n) <= 3 / 10 ^ 13)%R.
Proof.
  destruct (brick_solver 0 ltac:(lia)) as (r & C & sets & CN & CX & EC & EN & L & Q & Er & Eb & H). cbv zeta in H. set (sv := Solver _ _ _ _ _ _ _) in *. destruct H as (HS & Enc & H8 & _ & _ & HP & HN & HX & HC).
  change (Spec_Full.sub1 0) with 1 in *. change (pts1 0) with 2 in *. cbn [Nat.mul Nat.add] in Enc.
  set (w := fun n => if Req_EM_T (CX n 0) 1 then 3%R else 1%R).
  assert (Lob : lob 2 0 = (-1)%R /\ lob 2 1 = 1%R) by (destruct (gap_facts_ok 0 ltac:(lia)) as (F0 & F1 & _); split; [exact F0|exact F1]). destruct Lob as (F0 & F1).
  assert (Xc : forall c l, c < 2 -> l < 8 -> CX (CN c l) 0 = (INR c + INR (l mod 2))%R).
  { intros c l Hc Hl. assert (Z : CN c l = EN c (corner_pt 0 0 0 0 l)) by (rewrite <- (HC c 0 0 0 l Hc) by lia; f_equal; unfold cell_id; cbv zeta; change (Spec_Full.sub1 0) with 1; lia). rewrite Z. unfold corner_pt. cbv zeta. change (pts1 0) with 2.
    assert (l mod 2 < 2) by (apply Nat.mod_upper_bound; lia). assert (l / 2 mod 2 < 2) by (apply Nat.mod_upper_bound; lia). assert (l / 4 < 2) by (apply Nat.div_lt_upper_bound; lia).
    rewrite !Nat.add_0_l. rewrite HX by assumption. assert (Q2 : l mod 2 = 0 \/ l mod 2 = 1) by lia. destruct Q2 as [-> | ->]; [rewrite F0|rewrite F1]; cbn [INR]; lra. }
  assert (Cm : forall c, c < 2 -> cell_mean CN w c = 2%R).
  { intros c Hc. unfold cell_mean, w. rewrite (rsum_ext 8 _ (fun l => if Req_EM_T (INR c + INR (l mod 2))%R 1 then 3%R else 1%R)) by (intros l Hl; rewrite Xc by assumption; reflexivity).
    assert (c = 0 \/ c = 1) as [-> | ->] by lia; cbn [rsum INR Nat.modulo Nat.divmod snd Nat.sub].
    - destruct (Req_EM_T (0 + 0) 1) as [Z|_]; [lra|]. destruct (Req_EM_T (0 + 1) 1) as [_|Z]; [lra|lra].
    - destruct (Req_EM_T (1 + 0) 1) as [_|Z]; [|lra]. destruct (Req_EM_T (1 + 1) 1) as [Z|_]; lra. }
  assert (G18 : (0 <= gamma u64 18 <= 19 / 2 ^ 53)%R).
  { unfold gamma, u64. replace (INR 18) with 18%R by (rewrite INR_IZR_INZ; reflexivity). assert (P : (2 ^ 10 <= 2 ^ 53)%R) by (apply Rle_pow; [lra|lia]). set (t := (2 ^ 53)%R) in *. assert (1024 <= t)%R by lra.
    assert (E : (18 * / t / (1 - 18 * / t) = 18 / (t - 18))%R) by (field; split; lra). rewrite E. split; [apply Rlt_le, Rdiv_lt_0_compat; lra|].
    apply (Rmult_le_reg_r ((t - 18) * t)); [apply Rmult_lt_0_compat; lra|]. replace (18 / (t - 18) * ((t - 18) * t))%R with (18 * t)%R by (field; lra). replace (19 / t * ((t - 18) * t))%R with (19 * (t - 18))%R by (field; lra). lra. }
  assert (T53 : (19 / 2 ^ 53 <= 3 / 10 ^ 15)%R).
  { apply (Rmult_le_reg_r (2 ^ 53 * 10 ^ 15)); [apply Rmult_lt_0_compat; apply pow_lt; lra|]. replace (19 / 2 ^ 53 * (2 ^ 53 * 10 ^ 15))%R with (19 * 10 ^ 15)%R by (field; apply pow_nonzero; lra). replace (3 / 10 ^ 15 * (2 ^ 53 * 10 ^ 15))%R with (3 * 2 ^ 53)%R by (field; apply pow_nonzero; lra). lra. }
  assert (W : drops CN (cm_nodes (sv_mesh sv)) 2 L Q w 3).
  { intros n Hn. split; [unfold w; destruct (Req_EM_T _ _); lra|]. intros N0 N3. destruct (HP n Hn) as (P0 & P3).
    assert (Xn : CX n 0 = 1%R).
    { destruct (HN n Hn) as (e & l & He & Hl & Q'). assert (l mod 2 < 2) by (apply Nat.mod_upper_bound; lia). assert (l / 2 mod 2 < 2) by (apply Nat.mod_upper_bound; lia). assert (l / 2 / 2 < 2) by (apply Nat.div_lt_upper_bound; [lia|]; apply Nat.div_lt_upper_bound; [lia|]; cbn in Hl; lia).
      assert (D1 := Nat.div_mod l 2 ltac:(lia)). assert (D2 := Nat.div_mod (l / 2) 2 ltac:(lia)).
      assert (V := HX e (l mod 2) (l / 2 mod 2) (l / 2 / 2) He ltac:(lia) ltac:(lia) ltac:(lia)). replace (l mod 2 + l / 2 mod 2 * 2 + l / 2 / 2 * 2 * 2) with l in V by lia. rewrite Q' in V.
      assert (M0 : CX n 0 <> 0%R) by (intros Z; apply N0, P0, Z). assert (M2 : CX n 0 <> 2%R) by (intros Z; apply N3, P3, Z).
      assert (l mod 2 = 0 \/ l mod 2 = 1) as [El|El] by lia; rewrite El in V; rewrite ?F0, ?F1 in V; assert (e = 0 \/ e = 1) as [-> | ->] by lia; cbn [INR] in V; lra. }
    assert (Wn : w n = 3%R) by (unfold w; destruct (Req_EM_T (CX n 0) 1); [reflexivity|contradiction]). rewrite Wn. unfold smoothed, node_mean. destruct (corner_count CN 2 n =? 0) eqn:Ek; [lra|]. apply Nat.eqb_neq in Ek.
    rewrite (rsum_ext 2 _ (fun c => (2 * INR (times 8 CN c n))%R)) by (intros c Hc; rewrite Cm by exact Hc; ring). rewrite rsum_scal_l, <- Proof_Average2.INR_nsum. change (nsum 2 (fun c => times 8 CN c n)) with (corner_count CN 2 n).
    assert (K : INR (corner_count CN 2 n) <> 0%R) by (apply not_0_INR; exact Ek). replace (2 * INR (corner_count CN 2 n) / INR (corner_count CN 2 n))%R with 2%R by (field; exact K). lra. }
  assert (H8' : forall n, n < cm_nodes (sv_mesh sv) -> corner_count CN 2 n <= 8) by (intros n Hn; assert (Z := H8 n Hn); rewrite Enc in Z; exact Z).
  assert (GC : (gamma u64 18 * 3 <= / 2)%R) by lra.
  exists sv, CN, CX, EC, EN, L, Q, w. split; [exact HS|]. split; [exact Enc|]. split; [exact W|]. split; [exact H8'|]. split; [exact GC|].
  intros k s Hs Hs' Hb. assert (U := Float_Base.u64_range).
  assert (Enc' : cm_cells (sv_mesh sv) = 2) by exact Enc. assert (H1 := C80_uniform u64 binary64 sv CN CX EC EN L Q 8 s w 3 10 k). cbv zeta in H1. rewrite Enc' in H1. destruct H1 as (s1 & s2 & E1 & E2 & B); try assumption.
  - lra.
  - exact Float_Base.binary64_rounds.
  - change (8 + 10) with 18. unfold u64. replace (INR 18) with 18%R by (rewrite INR_IZR_INZ; reflexivity). assert (2 ^ 10 <= 2 ^ 53)%R by (apply Rle_pow; [lra|lia]). assert (/ 2 ^ 53 <= / 2 ^ 10)%R by (apply Rinv_le_contravar; [apply pow_lt; lra|assumption]). lra.
  - lra.
  - exists s1, s2. split; [exact E1|]. split; [exact E2|]. intros n Hn. specialize (B n Hn). change (8 + 10) with 18 in B. assert (Wn := proj1 (W n Hn)).
    eapply Rle_trans; [exact B|]. apply Rle_trans with (2 * (3 / 10 ^ 15) * 10 * 3)%R; [|lra]. assert (0 <= 2 * gamma u64 18 * 10 <= 2 * (3 / 10 ^ 15) * 10)%R by lra. apply Rmult_le_compat; lra.
Qed.

(** C62_max_principle does not carry over: where 13 cell corners meet, the constant field 10 rises above 10 in
    one cycle, where 9 meet it falls below 10 *)
Theorem C80_leaves_range : forall sv N X EC EN L Q s n, let nn := cm_nodes (sv_mesh sv) in let nc := cm_cells (sv_mesh sv) in
  sound sv N X EC EN L Q -> length (ru_node s) = nn -> length (ru_mat s) = nc -> (forall m, m < nn -> val (ru_node s) m = 10%R) ->
  n < nn -> ~ on_patches (L 0) Q n -> ~ on_patches (L 3) Q n ->
  exists s' t', advancef binary64 sv s = Ok s' /\ advance sv s = Ok t' /\
    (corner_count N nc n = 13 -> val (ru_node t') n = 10%R /\ (10 < val (ru_node s') n)%R) /\ (corner_count N nc n = 9 -> val (ru_node t') n = 10%R /\ (val (ru_node s') n < 10)%R).
Proof.
  intros sv N X EC EN L Q s n nn nc HS Hs Hs' H Hn N0 N3. destruct (C80_lists sv N X (so_mesh _ _ _ _ _ _ _ HS)) as (A & HA & Ha). destruct (Ha n Hn) as (Len & _).
  destruct (C80_cycle binary64 sv N X EC EN L Q A s HS HA Hs Hs') as (s' & E' & _ & _ & _ & V & _). destruct (C62_cycle sv N X EC EN L Q s HS Hs Hs') as (t' & Et & _ & _ & _ & W & _).
  exists s', t'. split; [exact E'|]. split; [exact Et|].
  assert (Vn := proj2 (proj2 (V n Hn)) N0 N3). assert (Wn := proj2 (proj2 (W n Hn)) N0 N3).
  assert (Vn' : val (ru_node s') n = smoothedf binary64 N A (fun _ => 10%R) n).
  { rewrite Vn. apply (smoothedf_ext binary64 sv N X EC EN L Q A HS HA); [exact Hn|exact H]. }
  assert (Wn' : corner_count N nc n <> 0 -> val (ru_node t') n = 10%R).
  { intros Z. rewrite Wn. rewrite (Proof_Average2.smoothed_ext N nn nc (nodes_in sv N X EC EN L Q HS) _ (fun _ => 10%R)) by exact H. apply Proof_Average2.smoothed_const. fold nc. lia. }
  assert (Vn2 : val (ru_node s') n = meanf binary64 (corner_count N nc n) (fun _ => meanf binary64 8 (fun _ => 10%R))) by (rewrite Vn'; unfold nc; rewrite <- Len; reflexivity).
  split; intros Ek; rewrite Vn2, Wn', Ek by lia; split; first [reflexivity|exact ten_13|exact ten_9].
Qed.
Print Assumptions C80_leaves_range.

(** 13 wedges around an axis, each its own element, the boundary surfaces elsewhere *)
Lemma far_surface N X nc pt n : (forall m, (Rabs (X m 0%nat) <= 12)%R) -> ~ near_surface N X nc pt 0 100 n.
Proof.
  intros B (c & t & l & _ & _ & Q & _). cbn [surface_distance] in Q.
  assert (A : (face_centre N X c t 0 <= 24)%R).
  { assert (Z : (rsum 8 (fun l => if Nat.eqb (corner_coord l (t / 2)) (t mod 2) then X (N c l) 0%nat else 0) <= rsum 8 (fun _ => 12))%R).
    { apply rsum_le. intros i _. assert (Y := B (N c i)). assert (Y' := Rle_abs (X (N c i) 0%nat)). destruct (Nat.eqb _ _); lra. }
    unfold face_centre, side_mean. cbn [rsum] in Z |- *. lra. }
  assert (Y := Rle_abs (- (face_centre N X c t 0 - 100))). rewrite Rabs_Ropp in Y. lra.
Qed.
Example C80_leaves_range_nonvacuous : exists sv N X EC EN L Q s s' t', sound sv N X EC EN L Q /\ cm_cells (sv_mesh sv) = 13 /\ cm_nodes (sv_mesh sv) = 54 /\
  (forall m, m < 54 -> val (ru_node s) m = 10%R) /\ advancef binary64 sv s = Ok s' /\ advance sv s = Ok t' /\ val (ru_node t') 0 = 10%R /\ (10 < val (ru_node s') 0)%R.
Proof.
  assert (Hcn : forall e l, e < 13 -> l < 8 -> getu (cm_conn wheel) (e * 8 + l) = Ok (wheel_n e l) /\ wheel_n e l < cm_nodes wheel).
  { intros e l He Hl. exact (proj1 wheel_describes e l He Hl). }
  destruct (C61_connectivity 8 13 (cm_conn wheel) wheel wheel_n wheel_x wheel_n 1 12 wheel_describes eq_refl wheel_last ltac:(split; [lra|apply pow_R1_Rle; lra]) Hcn (le_n 13)) as (C & pt & EC & A1 & _ & _ & A4 & _ & _ & A7 & _).
  { exists 0, 1. split; [lia|]. split; [lia|]. split; [lia|]. exists 0, 0. split; [lia|]. split; [lia|]. reflexivity. }
  set (bcs := repeat (0, 100%R) 4).
  destruct (C62_generate_bcs wheel (cn_patches C) bcs wheel_n wheel_x pt wheel_describes A4) as (b & L & Q & Eb & Hb); [discriminate|].
  assert (Hbs : forall i, i = 0 \/ i = 3 -> presents (num_bdy_patches_in_set b i) (bdy_patches_in_set b i) (L i) /\ patch_corners (cn_patches C) 54 (L i) Q /\ forall n, ~ on_patches (L i) Q n).
  { intros i Hi. destruct (Hb i 0 100%R) as (B1 & B2 & B3); [destruct Hi as [-> | ->]; reflexivity|]. split; [exact B1|]. split; [exact B2|]. intros n F. apply B3 in F. revert F. apply far_surface. exact wheel_x_bound. }
  set (sv := Solver 13 1 8 {| rm_gauss := []; rm_cie := map Some (seq 0 13); rm_eic := [] |} wheel C b).
  assert (HS : sound sv wheel_n wheel_x (fun e _ => e) wheel_n L Q).
  { split; [split; [exact wheel_describes|exact A1]| |].
    - split; cbn [sv sv_elems sv_ns sv_G sv_mesh sv_conn sv_maps wheel cm_cells cm_nodes Nat.mul Nat.add].
      + intros e l He Hl. assert (l = 0) as -> by lia. split; [|exact He]. unfold cells_in_elem. cbn [rm_cie Nat.mul Nat.add]. rewrite Nat.mul_1_r, Nat.add_0_r. unfold getu, get.
        rewrite nth_error_map, nth_error_nth' with (d := 0) by (rewrite seq_length; lia). rewrite seq_nth by lia. reflexivity.
      + intros c Hc. exists c, 0. repeat split; lia.
      + intros e l He Hl. split; [apply A7; assumption|apply wheel_n_lt; assumption].
      + intros n Hn. assert (G : forall c l, c < 13 -> l < 8 -> wheel_n c l = n -> exists e l, e < 13 /\ l < 8 /\ wheel_n e l = n) by (intros c l Hc Hl Q'; exists c, l; auto).
        destruct (Nat.lt_ge_cases n 2); [apply (G 0 (4 * n)); [lia|lia|]; assert (n = 0 \/ n = 1) as [-> | ->] by lia; reflexivity|].
        assert (D2 := Nat.div_mod n 2 ltac:(lia)). assert (M2 : n mod 2 < 2) by (apply Nat.mod_upper_bound; lia).
        assert (Dm : forall k, k < 4 -> (4 * (n mod 2) + k) / 4 = n mod 2 /\ (4 * (n mod 2) + k) mod 4 = k).
        { intros k Hk. split; [rewrite (Nat.mul_comm 4), Nat.div_add_l, (Nat.div_small k) by lia; lia|rewrite (Nat.mul_comm 4), Nat.add_comm, Nat.mod_add, Nat.mod_small by lia; reflexivity]. }
        destruct (Nat.lt_ge_cases n 28).
        * apply (G (n / 2 - 1) (4 * (n mod 2) + 1)); [lia|lia|]. unfold wheel_n. destruct (Dm 1 ltac:(lia)) as (-> & ->). lia.
        * apply (G (n / 2 - 14) (4 * (n mod 2) + 3)); [lia|lia|]. unfold wheel_n. destruct (Dm 3 ltac:(lia)) as (-> & ->). lia.
    - intros i Hi. destruct (Hbs i Hi) as (B1 & B2 & _). split; [exact B1|exact B2]. }
  set (s := Run (repeat 10%R 54) (repeat 0%R 13) [] 0 (repeat 0%R 250) (10 ^ 8)%R 0%R).
  assert (V : forall m, m < 54 -> val (ru_node s) m = 10%R) by (intros m Hm; unfold val; cbn [s ru_node]; apply (repeat_spec 54 10%R), nth_In; rewrite repeat_length; exact Hm).
  destruct (C80_leaves_range sv wheel_n wheel_x (fun e _ => e) wheel_n L Q s 0 HS (repeat_length _ _) (repeat_length _ _) V) as (s' & t' & E1 & E2 & R & _).
  - cbn; lia.
  - apply (Hbs 0); auto.
  - apply (Hbs 3); auto.
  - exists sv, wheel_n, wheel_x, (fun e _ => e), wheel_n, L, Q, s, s', t'. split; [exact HS|]. split; [reflexivity|]. split; [reflexivity|]. split; [exact V|]. split; [exact E1|]. split; [exact E2|]. apply R. exact wheel_count.
Qed.
