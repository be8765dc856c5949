(** Refinement in rounded arithmetic: Lobatto nodes, points, nodes and cells. *)
From Coq Require Import Reals List Arith ZArith Lra Lia.
Import ListNotations.
Require Import Verif.Base Verif.RBase Verif.RSum Verif.Proof_Quad2 Verif.Spec_Lagrange Verif.Lagrange_Math Verif.Model_Quad Verif.Proof_Quad3 Verif.Proof_Quad7 Verif.Model_Geom Verif.Proof_Geom Verif.Proof_Tri Verif.Model_Refine Verif.Proof_Refine Verif.Prop_Refine
  Verif.Model_Vtk Verif.Model_High Verif.Spec_Quad Verif.Spec_High Verif.Proof_Lob Verif.Proof_Box Verif.Proof_Blas Verif.Proof_High Verif.Proof_High2 Verif.Proof_High3 Verif.Model_Full Verif.Spec_Full Verif.Proof_Full Verif.Proof_Full3
  Verif.Spec_Float Verif.Float_Base Verif.Model_FloatLagrange Verif.Model_FloatRefine Verif.Spec_FloatRefine.
Local Open Scope nat_scope.

Definition lobf (rnd : R -> R) (n i : nat) : R := nth i (lobatto_floats rnd (Z.of_nat n)) 0%R.
(** coordinate d of Gauss point g as computed *)
Definition tri_posf (rnd : R -> R) (p : nat) (N : nat -> nat -> nat) (X : nat -> nat -> R) (g d : nat) : R :=
  let n1 := pts1 p in
  tri_mapf rnd (fun v => X (N (g / n1 ^ 3) v) d) (fun i => lobf rnd n1 (grid n1 g i)).

Section P.
Context (u : R) (rnd : R -> R).
Hypothesis HD : double_like u rnd.

Lemma dl_u : (0 <= u <= / 16)%R. Proof. apply HD. Qed.
Lemma dl_u1 : (0 <= u < 1)%R. Proof. assert (H := dl_u). lra. Qed.
Lemma dl_r : rounds u rnd. Proof. apply HD. Qed.
Lemma dl_idem x : rnd (rnd x) = rnd x. Proof. apply HD. Qed.
Lemma dl_opp x : rnd (- x) = (- rnd x)%R. Proof. apply HD. Qed.
Lemma dl_2 x : rnd (2 * x) = (2 * rnd x)%R. Proof. apply HD. Qed.
Lemma dl_mono x y : (x <= y)%R -> (rnd x <= rnd y)%R. Proof. apply HD. Qed.
Lemma dl_1 : rnd 1 = 1%R. Proof. apply HD. Qed.
Lemma dl_0 : rnd 0 = 0%R. Proof. apply (rnd_0 u dl_u1 rnd dl_r). Qed.
Lemma dl_m1 : rnd (-1) = (-1)%R. Proof. replace (-1)%R with (- (1))%R by ring. rewrite dl_opp, dl_1. reflexivity. Qed.
Lemma dl_two : rnd 2 = 2%R. Proof. replace 2%R with (2 * 1)%R by ring. rewrite dl_2, dl_1. reflexivity. Qed.
Lemma dl_half x : rnd (x / 2) = (rnd x / 2)%R.
Proof. assert (H := dl_2 (x / 2)). replace (2 * (x / 2))%R with x in H by field. lra. Qed.
Lemma dl_quarter x : rnd (x / 4) = (rnd x / 4)%R.
Proof. replace (x / 4)%R with (x / 2 / 2)%R by field. rewrite !dl_half. field. Qed.
Lemma dl_eighth x : rnd (x / 8) = (rnd x / 8)%R.
Proof. replace (x / 8)%R with (x / 4 / 2)%R by field. rewrite dl_half, dl_quarter. field. Qed.
Lemma dl_abs1 x : (Rabs x <= 1)%R -> (Rabs (rnd x) <= 1)%R.
Proof.
  intros H. apply Rabs_le. assert (B : (-1 <= x <= 1)%R) by (split; [|apply Rle_trans with (Rabs x); [apply Rle_abs|exact H]]; assert (Q := Rle_abs (- x)); rewrite Rabs_Ropp in Q; lra).
  split; [apply Rle_trans with (rnd (-1)); [rewrite dl_m1; lra|]|apply Rle_trans with (rnd 1); [|rewrite dl_1; lra]]; apply dl_mono; lra.
Qed.

Lemma abs_le a b : (Rabs a <= b)%R -> (- b <= a <= b)%R.
Proof. unfold Rabs. destruct (Rcase_abs a); lra. Qed.

(** * Lobatto nodes *)
Lemma floats_map n : n <> 4 -> n <> 5 -> n <> 6 -> lobatto_floats rnd (Z.of_nat n) = map rnd (lobatto_nodes_tab (Z.of_nat n)).
Proof.
  intros H4 H5 H6. rewrite <- swage_same. unfold lobatto_floats. cbv zeta.
  destruct (Z.of_nat n) as [|q|q] eqn:E; try reflexivity.
  destruct (Pos.eq_dec q 4) as [->|]; [lia|]. destruct (Pos.eq_dec q 5) as [->|]; [lia|]. destruct (Pos.eq_dec q 6) as [->|]; [lia|].
  repeat (destruct q as [q|q|]; try reflexivity; try congruence).
Qed.
Lemma lobf_map n i : n <> 4 -> n <> 5 -> n <> 6 -> lobf rnd n i = rnd (lob n i).
Proof. intros. unfold lobf, lob. rewrite floats_map by assumption. rewrite <- (map_nth rnd). rewrite dl_0. reflexivity. Qed.
Lemma pts1_not p : p <= 9 -> pts1 p <> 4 /\ pts1 p <> 6 /\ (pts1 p = 5 -> p = 2).
Proof. unfold pts1. destruct p; lia. Qed.
Lemma lobf_5 i : i < 5 -> exists t, within u 3 t /\ lobf rnd 5 i = (lob 5 i * t)%R.
Proof.
  intros Hi. assert (W1 := within_1 u dl_u1 3).
  destruct (rnd_w u dl_u1 rnd dl_r (sqrt 21)) as (t1 & B1 & E1). destruct (rnd_w u dl_u1 rnd dl_r (1 / 7)%R) as (t2 & B2 & E2).
  destruct (rnd_w u dl_u1 rnd dl_r (rnd (1 / 7) * rnd (sqrt 21))) as (t3 & B3 & E3).
  assert (E4 : rnd (-1 / 7) = (- rnd (1 / 7))%R) by (rewrite <- dl_opp; f_equal; field).
  assert (W : within u 3 (t1 * t2 * t3)) by (apply (within_mul u dl_u1 2 1); [apply (within_mul u dl_u1 1 1)|]; assumption).
  destruct i as [|[|[|[|[|i]]]]]; [| | | | |lia]; unfold lobf, lob; cbn [Z.of_nat Pos.of_succ_nat Pos.succ lobatto_floats lobatto_nodes_tab nth].
  - exists 1%R. split; [exact W1|ring].
  - exists (t1 * t2 * t3)%R. split; [exact W|]. rewrite E4. replace (- rnd (1 / 7) * rnd (sqrt 21))%R with (- (rnd (1 / 7) * rnd (sqrt 21)))%R by ring. rewrite dl_opp, E3, E1, E2. field.
  - exists 1%R. split; [exact W1|ring].
  - exists (t1 * t2 * t3)%R. split; [exact W|]. rewrite E3, E1, E2. field.
  - exists 1%R. split; [exact W1|ring].
Qed.
Lemma lobf_near p i : p <= 9 -> i < pts1 p -> exists t, within u 3 t /\ lobf rnd (pts1 p) i = (lob (pts1 p) i * t)%R.
Proof.
  intros Hp Hi. destruct (pts1_not p Hp) as (A & B & _). destruct (Nat.eq_dec (pts1 p) 5) as [E|E].
  - rewrite E in *. apply lobf_5. exact Hi.
  - rewrite lobf_map by assumption. destruct (rnd_w u dl_u1 rnd dl_r (lob (pts1 p) i)) as (t & W & ->). exists t. split; [apply (within_le u dl_u1 1); [lia|exact W]|reflexivity].
Qed.
Lemma lobf_idem p i : p <= 9 -> rnd (lobf rnd (pts1 p) i) = lobf rnd (pts1 p) i.
Proof.
  intros Hp. destruct (pts1_not p Hp) as (A & B & _). destruct (Nat.eq_dec (pts1 p) 5) as [E|E].
  - rewrite E. unfold lobf. cbn [Z.of_nat Pos.of_succ_nat Pos.succ lobatto_floats].
    destruct i as [|[|[|[|[|i]]]]]; cbn [nth]; rewrite ?dl_idem, ?dl_m1, ?dl_0, ?dl_1; try reflexivity. destruct i; apply dl_0.
  - rewrite lobf_map by assumption. apply dl_idem.
Qed.
Lemma lobf_len p : p <= 9 -> length (lobatto_floats rnd (Z.of_nat (pts1 p))) = pts1 p.
Proof.
  intros Hp. destruct (pts1_not p Hp) as (A & B & _). assert (R := pts1_range p Hp). destruct (Nat.eq_dec (pts1 p) 5) as [E|E]; [rewrite E; reflexivity|].
  rewrite floats_map by assumption. rewrite map_length. apply lob_len. lia.
Qed.
Lemma lob_ends p : p <= 9 -> lob (pts1 p) 0 = (-1)%R /\ lob (pts1 p) (Spec_Full.sub1 p) = 1%R.
Proof.
  intros Hp. destruct (gap_facts_ok p Hp) as (F0 & F1 & _). auto.
Qed.
Lemma lobf_ends p : p <= 9 -> lobf rnd (pts1 p) 0 = (-1)%R /\ lobf rnd (pts1 p) (Spec_Full.sub1 p) = 1%R.
Proof.
  intros Hp. destruct (pts1_not p Hp) as (A & B & C). destruct (Nat.eq_dec (pts1 p) 5) as [E|E]; [rewrite (C E); split; reflexivity|].
  rewrite !lobf_map by assumption. destruct (lob_ends p Hp) as (-> & ->). split; [apply dl_m1|apply dl_1].
Qed.
Lemma lob_sym p i : p <= 9 -> i <= Spec_Full.sub1 p -> lob (pts1 p) (Spec_Full.sub1 p - i) = (- lob (pts1 p) i)%R.
Proof.
  intros Hp Hi. destruct (pts1_sub p) as (A & B). assert (R := pts1_range p Hp).
  destruct (lob_ends p Hp) as (Q0 & Q1). destruct p as [|p]; [change (Spec_Full.sub1 0) with 1 in *; assert (D : i = 0 \/ i = 1) by lia; destruct D as [-> | ->]; cbn [Nat.sub]; lra|].
  assert (Hn : 1 <= pts1 (S p) <= 20) by (unfold pts1; lia).
  destruct (lobatto_rule (pts1 (S p)) Hn) as (_ & _ & _ & Q). destruct (q_symmetric _ _ _ _ _ Q i ltac:(lia)) as (Y & _).
  replace (Spec_Full.sub1 (S p) - i) with (pts1 (S p) - 1 - i) by lia. exact Y.
Qed.
Lemma lobf_sym p i : p <= 9 -> i <= Spec_Full.sub1 p -> lobf rnd (pts1 p) (Spec_Full.sub1 p - i) = (- lobf rnd (pts1 p) i)%R.
Proof.
  intros Hp Hi. destruct (pts1_not p Hp) as (A & B & C). destruct (Nat.eq_dec (pts1 p) 5) as [E|E].
  - rewrite (C E) in *. change (Spec_Full.sub1 2) with 4 in *. change (pts1 2) with 5.
    assert (E4 : rnd (-1 / 7) = (- rnd (1 / 7))%R) by (rewrite <- dl_opp; f_equal; field).
    assert (E5 : rnd (rnd (-1 / 7) * rnd (sqrt 21)) = (- rnd (rnd (1 / 7) * rnd (sqrt 21)))%R) by (rewrite E4, <- (dl_opp (rnd (1 / 7) * rnd (sqrt 21))); f_equal; ring).
    destruct i as [|[|[|[|[|i]]]]]; [| | | | |lia]; unfold lobf; cbn [Nat.sub Z.of_nat Pos.of_succ_nat Pos.succ lobatto_floats nth]; rewrite ?E5; ring.
  - rewrite !lobf_map by assumption. rewrite lob_sym by assumption. apply dl_opp.
Qed.
Lemma lobf_range p i : p <= 9 -> i < pts1 p -> (-1 <= lobf rnd (pts1 p) i <= 1)%R.
Proof.
  intros Hp Hi. assert (R := pts1_range p Hp). destruct (pts1_not p Hp) as (A & B & C). destruct (Nat.eq_dec (pts1 p) 5) as [E|E].
  - rewrite E in *. unfold lobf. cbn [Z.of_nat Pos.of_succ_nat Pos.succ lobatto_floats].
    assert (E4 : rnd (-1 / 7) = (- rnd (1 / 7))%R) by (rewrite <- dl_opp; f_equal; field).
    assert (E5 : rnd (rnd (-1 / 7) * rnd (sqrt 21)) = (- rnd (rnd (1 / 7) * rnd (sqrt 21)))%R) by (rewrite E4, <- (dl_opp (rnd (1 / 7) * rnd (sqrt 21))); f_equal; ring).
    assert (Q : (-1 <= rnd (rnd (1 / 7) * rnd (sqrt 21)) <= 1)%R).
    { assert (S := sqrt_bd 21 (45 / 10) (46 / 10) ltac:(lra) ltac:(lra) ltac:(lra)). assert (U := dl_u).
      destruct (dl_r (1 / 7)%R) as (d1 & B1 & E1). destruct (dl_r (sqrt 21)) as (d2 & B2 & E2). apply abs_le in B1. apply abs_le in B2.
      assert (B1' : (/ 8 <= rnd (1 / 7) <= / 5)%R) by (rewrite E1; lra).
      assert (B2' : (4 <= rnd (sqrt 21) <= 5)%R) by (rewrite E2; nra).
      assert (M : (0 <= rnd (1 / 7) * rnd (sqrt 21) <= 1)%R) by nra.
      assert (M0 := dl_mono _ _ (proj1 M)). assert (M1 := dl_mono _ _ (proj2 M)). rewrite dl_0 in M0. rewrite dl_1 in M1. lra. }
    rewrite E5. destruct i as [|[|[|[|[|i]]]]]; [| | | | |lia]; cbn [nth]; lra.
  - rewrite lobf_map by assumption. assert (Q := lob_range (pts1 p) i ltac:(lia) Hi).
    assert (B1 := dl_abs1 (lob (pts1 p) i) ltac:(apply Rabs_le; exact Q)). apply abs_le in B1. exact B1.
Qed.
Lemma lobf_err p i : p <= 9 -> i < pts1 p -> (INR 3 * u < 1)%R -> (Rabs (lobf rnd (pts1 p) i - lob (pts1 p) i) <= gamma u 3)%R.
Proof.
  intros Hp Hi H3. assert (R := pts1_range p Hp). destruct (lobf_near p i Hp Hi) as (t & W & ->).
  replace (lob (pts1 p) i * t - lob (pts1 p) i)%R with (lob (pts1 p) i * (t - 1))%R by ring. rewrite Rabs_mult.
  assert (Q := lob_range (pts1 p) i ltac:(lia) Hi). assert (Q1 : (Rabs (lob (pts1 p) i) <= 1)%R) by (apply Rabs_le; exact Q).
  assert (G := within_gamma u dl_u1 3 t H3 W). assert (A1 := Rabs_pos (t - 1)). assert (A2 := Rabs_pos (lob (pts1 p) i)). nra.
Qed.

(** * points *)
Lemma tri_mapf_ext init init' q q' : (forall v, v < 8 -> init v = init' v) -> (forall d, d < 3 -> q d = q' d) -> tri_mapf rnd init q = tri_mapf rnd init' q'.
Proof.
  intros H Hq. unfold tri_mapf. cbn [fold_up]. unfold tri_basisf. cbv zeta. rewrite !H by lia. rewrite !(Hq 0), !(Hq 1), !(Hq 2) by lia. reflexivity.
Qed.
Lemma tri_posf_at p N X e i j k d : let n1 := pts1 p in i < n1 -> j < n1 -> k < n1 ->
  tri_posf rnd p N X (e * n1 ^ 3 + (i + j * n1 + k * n1 * n1)) d =
  tri_mapf rnd (fun v => X (N e v) d) (fun d => match d with 0 => lobf rnd n1 i | 1 => lobf rnd n1 j | _ => lobf rnd n1 k end).
Proof.
  intros n1 Hi Hj Hk. unfold tri_posf. cbv zeta. fold n1.
  assert (L : i + j * n1 + k * n1 * n1 < n1 ^ 3) by (apply grid3_lt; assumption).
  rewrite loop_nat_split by exact L. apply tri_mapf_ext; [reflexivity|]. intros q Hq. destruct (grid_at n1 i j k Hi Hj Hk) as (A & B & C).
  destruct q as [|[|[|q]]]; [| | |lia]; rewrite grid_elem by lia; rewrite ?A, ?B, ?C; reflexivity.
Qed.
Lemma lobf_array p : p <= 9 -> exists a, stores (repeat None (pts1 p)) 0 (lobatto_floats rnd (Z.of_nat (pts1 p))) = Ok a /\
  forall i, i < pts1 p -> getu a i = Ok (lobf rnd (pts1 p) i).
Proof.
  intros Hp. destruct (stores_wrote (pts1 p) (repeat None (pts1 p)) _ (lobf_len p Hp) ltac:(rewrite repeat_length; lia)) as (a & E & _ & W).
  exists a. split; [exact E|]. intros i Hi. apply getu_some. rewrite W, ltb_t by exact Hi. reflexivity.
Qed.
Theorem refine_pointsf_ok p m N X : p <= 9 -> cdescribes m N X ->
  exists pts, refine_pointsf rnd p m = Ok pts /\
    forall g d, g < cm_cells m * pts1 p ^ 3 -> d < 3 -> getu pts (g * 3 + d) = Ok (tri_posf rnd p N X g d).
Proof.
  intros Hp HM. unfold refine_pointsf. cbv zeta. rewrite pts1_model. set (n1 := pts1 p). set (ng := n1 ^ 3). set (ne := cm_cells m).
  assert (R1 := pts1_range p Hp). fold n1 in R1.
  assert (Eg : ng = n1 * n1 * n1) by (unfold ng; cbn [Nat.pow]; ring).
  destruct (lobf_array p Hp) as (a & Ea & Ga). fold n1 in Ea, Ga. rewrite Ea. cbn [bind]. clear Ea.
  set (filledp := fun n (pts : list (option R)) => length pts = ne * ng * 3 /\ forall g d, g < n -> d < 3 -> nth_error pts (g * 3 + d) = Some (Some (tri_posf rnd p N X g d))).
  match goal with |- exists pts, bind (loop ?N ?B ?S0) _ = _ /\ _ => set (body := B); set (s0 := S0) end.
  assert (Main : exists s, loop ne body s0 = Ok s /\ let '(pts, _, _, _, _) := s in filledp (ne * ng) pts).
  { edestruct (loop_inv (fun e (s : list (option R) * list (option R) * list (option R) * list (option R) * nat) =>
      let '(pts, vx, vy, vz, count) := s in filledp (e * ng) pts /\ length vx = 8 /\ length vy = 8 /\ length vz = 8 /\ count = e * ng) ne body s0) as (s & Es & Hs).
    3:{ exists s. split; [exact Es|]. destruct s as ((((pts, vx), vy), vz), count). apply Hs. }
    - unfold s0, filledp. rewrite !repeat_length. split; [|repeat split]. split; [reflexivity|]. intros g d Hg. exfalso. cbn in Hg. lia.
    - intros e ((((pts, vx), vy), vz), count) He (Fp & Lx & Ly & Lz & Ec). unfold body. cbn beta iota.
      destruct (init_arrays_ok m N X e vx vy vz HM He Lx Ly Lz) as (vx' & vy' & vz' & -> & Fx & Fy & Fz). cbn [bind]. clear vx vy vz Lx Ly Lz.
      set (I := fun q (s : list (option R) * list (option R) * list (option R) * list (option R) * nat) =>
         let '(pts, vx, vy, vz, count) := s in filledp (e * ng + q) pts /\ vx = vx' /\ vy = vy' /\ vz = vz' /\ count = e * ng + q).
      edestruct (loop_inv (fun k s => I (k * n1 * n1) s) n1) as (s & Es & Hs).
      3:{ exists s. split; [exact Es|]. destruct s as ((((pts', vx), vy), vz), count'). destruct Hs as (F & -> & -> & -> & Ec').
          replace (S e * ng) with (e * ng + n1 * n1 * n1) by lia. destruct Fx as (Fx & _), Fy as (Fy & _), Fz as (Fz & _). auto. }
      + unfold I. cbn [Nat.mul]. rewrite Nat.add_0_r. auto.
      + intros k s Hk Hs. edestruct (loop_inv (fun j s => I (k * n1 * n1 + j * n1) s) n1) as (s' & Es & Hs').
        3:{ exists s'. split; [exact Es|]. cbn beta in Hs' |- *. replace (S k * n1 * n1) with (k * n1 * n1 + n1 * n1) by lia. exact Hs'. }
        { cbn [Nat.mul]. rewrite Nat.add_0_r. exact Hs. }
        clear s Hs. intros j s Hj Hs. edestruct (loop_inv (fun i s => I (k * n1 * n1 + j * n1 + i) s) n1) as (s' & Es & Hs').
        3:{ exists s'. split; [exact Es|]. cbn beta in Hs' |- *. replace (k * n1 * n1 + S j * n1) with (k * n1 * n1 + j * n1 + n1) by lia. exact Hs'. }
        { rewrite Nat.add_0_r. exact Hs. }
        clear s Hs. intros i ((((pts1, wx), wy), wz), count1) Hi (F1 & -> & -> & -> & ->). cbn beta iota.
        rewrite !Ga by assumption. cbn [bind].
        set (q := fun d : nat => match d with 0 => lobf rnd n1 i | 1 => lobf rnd n1 j | _ => lobf rnd n1 k end).
        set (g := e * ng + (k * n1 * n1 + j * n1 + i)).
        assert (Pos : forall d w, filled 8 w (fun v => X (N e v) d) -> tri_mapf rnd (ptr w) q = tri_posf rnd p N X g d).
        { intros d w Fw. replace g with (e * n1 ^ 3 + (i + j * n1 + k * n1 * n1)) by (unfold g, ng; ring). unfold n1. rewrite tri_posf_at by assumption. fold n1.
          apply tri_mapf_ext; [intros v Hv; exact (ptr_filled 8 _ _ v Fw Hv)|reflexivity]. }
        rewrite (Pos 0 _ Fx), (Pos 1 _ Fy), (Pos 2 _ Fz). clear Pos.
        destruct F1 as (L1 & G1). fold g in G1.
        assert (Lq : k * n1 * n1 + j * n1 + i < ng) by (rewrite Eg; nia).
        assert (Hg : g < ne * ng) by (unfold g; nia).
        rewrite !set_ok by (rewrite ?upd_length; lia). cbn [bind].
        rewrite !set_ok by (rewrite ?upd_length; lia). cbn [bind].
        rewrite !set_ok by (rewrite ?upd_length; lia). cbn [bind].
        eexists. split; [reflexivity|]. unfold I. cbn beta iota. split; [|repeat split; lia].
        split; [rewrite !upd_length; exact L1|].
        intros g' d Hg' Hd. rewrite !upd_nth by (rewrite ?upd_length; lia).
        destruct (Nat.eq_dec g' g) as [->|].
        * assert (D : d = 0 \/ d = 1 \/ d = 2) by lia. destruct D as [-> | [-> | ->]];
          repeat match goal with |- context [(?u =? ?v)] => destruct (Nat.eqb_spec u v); try (exfalso; lia) end; reflexivity.
        * repeat match goal with |- context [(?u =? ?v)] => destruct (Nat.eqb_spec u v); try (exfalso; lia) end. apply G1; unfold g in *; lia. }
  destruct Main as (s & -> & Hs). destruct s as ((((pts, vx), vy), vz), count). cbn [bind].
  exists pts. split; [reflexivity|]. destruct Hs as (L & G). intros g d Hg Hd. apply getu_some, G; assumption.
Qed.

End P.

(** * merging, node placement and index maps, from the points and the keys *)
Definition refine_tail (p ne : nat) (pts : list (option R)) (keys : list nat) : res refined :=
  let ns := num_sub_1d p in let n1 := num_g_pts_1d p in
  do mg <- merge_nodes keys;
  do cs <- high_coords pts mg;
  do maps <- build_maps ne ns n1;
  do nic <- build_cell_nodes ne ns n1 mg;
  Ok {| rf_points := pts; rf_merged := mg; rf_maps := maps;
        rf_mesh := CMesh (mg_num mg) (ne * (ns * ns * ns)) cs nic |}.
Lemma refine_cellsf_tail rnd p m : refine_cellsf rnd p m = bind (refine_pointsf rnd p m) (fun pts => bind (refine_keysf rnd p m pts) (fun ks => refine_tail p (cm_cells m) pts ks)).
Proof. reflexivity. Qed.
Lemma refine_cells_tail p m : refine_cells p m = bind (refine_points p m) (fun pts => bind (refine_keys p m pts) (fun ks => refine_tail p (cm_cells m) pts ks)).
Proof. reflexivity. Qed.
Theorem refine_tail_ok p ne pts ks pos : let n1 := pts1 p in let ns := Spec_Full.sub1 p in let ng := n1 ^ 3 in
  p <= 9 -> (forall g i, g < S ne * ng -> i < 3 -> getu pts (g * 3 + i) = Ok (pos g i)) -> length ks = S ne * ng ->
  exists r nd own, refine_tail p (S ne) pts ks = Ok r /\ let M := rf_mesh r in
    cm_cells M = S ne * (ns * ns * ns) /\ cm_nodes M = mg_num (rf_merged r) /\
    (forall g i, g < S ne * ng -> i < 3 -> getu (rf_points r) (g * 3 + i) = Ok (pos g i)) /\
    (forall g, g < S ne * ng -> node_in_gauss (rf_merged r) g = Ok (nd g) /\ nd g < cm_nodes M) /\
    (forall v, v < cm_nodes M -> own v < S ne * ng /\ nd (own v) = v /\ forall i, i < 3 -> cm_coord M v i = Ok (pos (own v) i)) /\
    nd 0 = 0 /\ (forall g, 0 < g < S ne * ng -> nd g <> 0) /\
    (forall g g', 0 < g < S ne * ng -> 0 < g' < S ne * ng -> (nd g = nd g' <-> nth g ks 0 = nth g' ks 0)) /\
    forall e k j i, e < S ne -> k < ns -> j < ns -> i < ns ->
      cells_in_elem (rf_maps r) ns e (i + j * ns + k * ns * ns) = Ok (cell_id p e i j k) /\
      elems_in_cell (rf_maps r) (cell_id p e i j k) = Ok e /\
      forall c, c < 8 ->
        gauss_in_cell (rf_maps r) (cell_id p e i j k) c = Ok (e * ng + corner_pt p i j k c) /\
        cm_node M (cell_id p e i j k) c = Ok (nd (e * ng + corner_pt p i j k c)).
Proof.
  intros n1 ns ng Hp Gpts Lks.
  assert (R1 := pts1_range p Hp). fold n1 in R1. destruct (pts1_sub p) as (R2 & R3). fold n1 ns in R2, R3.
  assert (Hng : 0 < ng) by (unfold ng; cbn [Nat.pow]; nia).
  assert (Hks : ks <> []) by (intros ->; cbn in Lks; nia).
  destruct (merge_spec ks Hks) as (mg & Emg & M1 & M2 & M3 & M4 & M5). rewrite Lks in M1, M3, M4, M5.
  set (nd := fun g => match node_in_gauss mg g with Ok v => v | Err _ => 0 end).
  assert (End : forall g, g < S ne * ng -> node_in_gauss mg g = Ok (nd g) /\ nd g < mg_num mg).
  { intros g Hg. destruct (M1 g Hg) as (v & Hv & E). unfold nd. rewrite E. auto. }
  set (own := fun v => match gauss_of_node mg v with Ok g => g | Err _ => 0 end).
  assert (Eown : forall v, v < mg_num mg -> gauss_of_node mg v = Ok (own v) /\ own v < S ne * ng /\ nd (own v) = v).
  { intros v Hv. destruct (M5 v Hv) as (g & Hg & E & E'). unfold own. rewrite E. split; [reflexivity|]. split; [exact Hg|]. unfold nd. rewrite E'. reflexivity. }
  destruct (high_coords_ok pts mg (pos) (S ne * ng)) as (cs & Ecs & Hcs); [intros v Hv; exists (own v); destruct (Eown v Hv) as (? & ? & ?); auto|exact Gpts|].
  destruct (refined_maps (S ne) ns n1) as (maps & Emaps & Hmaps).
  destruct (refined_nodes (S ne) ns n1 ks mg) as (nic & Enic & Hnic); [lia|rewrite Lks; unfold ng; cbn [Nat.pow]; lia|exact Emg|].
  eexists {| rf_points := pts; rf_merged := mg; rf_maps := maps; rf_mesh := CMesh (mg_num mg) (S ne * (ns * ns * ns)) cs nic |}, nd, own.
  split; [unfold refine_tail; cbv zeta; rewrite Emg; cbn [bind]; rewrite Ecs; cbn [bind]; rewrite pts1_model, sub1_model; fold n1 ns; rewrite Emaps; cbn [bind]; rewrite Enic; reflexivity|].
  cbn [rf_points rf_merged rf_maps rf_mesh cm_cells cm_nodes cm_coords cm_conn]. cbv zeta.
  split; [reflexivity|]. split; [reflexivity|]. split; [exact Gpts|]. split; [exact End|].
  split; [intros v Hv; destruct (Eown v Hv) as (A & B & C); split; [exact B|]; split; [exact C|]; intros i Hi; apply Hcs; assumption|].
  split; [unfold nd; rewrite M2; reflexivity|].
  split; [intros g Hg E; apply (M3 g Hg); destruct (End g ltac:(lia)) as (-> & _); rewrite E; reflexivity|].
  split.
  - intros g g' Hg Hg'. specialize (M4 g g' Hg Hg'). destruct (End g ltac:(lia)) as (E & _). destruct (End g' ltac:(lia)) as (E' & _). rewrite E, E' in M4. split.
    + intros Q. apply M4. f_equal. exact Q.
    + intros Q. apply M4 in Q. injection Q. auto.
  - intros e k j i He Hk Hj Hi. destruct (Hmaps e k j i He Hk Hj Hi) as (A & B & C). cbv zeta in A, B, C. unfold cell_id. cbv zeta. fold ns. split; [exact A|]. split; [exact B|].
    intros c Hc. unfold corner_pt. cbv zeta. fold n1. set (l := i + c mod 2 + (j + c / 2 mod 2) * n1 + (k + c / 4) * n1 * n1).
    split; [rewrite C by exact Hc; f_equal; unfold ng, l; cbn [Nat.pow]; ring|].
    destruct (Hnic e k j i c He Hk Hj Hi Hc) as (n & E1 & _ & E2). cbv zeta in E1. unfold cm_node. cbn [cm_conn]. rewrite E1.
    fold l in E2. replace (l + n1 * n1 * n1 * e) with (e * ng + l) in E2 by (unfold ng; cbn [Nat.pow]; ring).
    assert (Hl : l < ng).
    { assert (c mod 2 < 2) by (apply Nat.mod_upper_bound; lia). assert (c / 2 mod 2 < 2) by (apply Nat.mod_upper_bound; lia). assert (c / 4 < 2) by (apply Nat.div_lt_upper_bound; lia).
      unfold l, ng. apply grid3_lt; lia. }
    destruct (End (e * ng + l) ltac:(nia)) as (E3 & _). congruence.
Qed.
