(** The unit cube of n^3 elements with 32-bit ints. *)
From Coq Require Import Reals List Arith ZArith Lra Lia Bool.
Import ListNotations.
Require Import Verif.Base Verif.NatSum Verif.RBase Verif.RSum Verif.Model_Geom Verif.Proof_Geom Verif.Model_Vtk Verif.Model_Refine Verif.Model_Conn Verif.Spec_Lagrange Verif.Spec_Quad Verif.Spec_High Verif.Proof_Lob Verif.Proof_High Verif.Proof_High2 Verif.Proof_High3 Verif.Model_Ref Verif.Model_High Verif.Model_Quad
  Verif.Model_Full Verif.Model_Int Verif.Spec_Patch Verif.Spec_Full Verif.Spec_Int Verif.Proof_Full Verif.Proof_Full2 Verif.Proof_Full3 Verif.Proof_Full4 Verif.Prop_Full Verif.Proof_Int Verif.Proof_Int2 Verif.Proof_Int3 Verif.Proof_Int4 Verif.Proof_Int5 Verif.Model_Patch.
Local Open Scope nat_scope.

Lemma p_cases p : p <= 5 -> p = 0 \/ p = 1 \/ p = 2 \/ p = 3 \/ p = 4 \/ p = 5.
Proof. lia. Qed.
Ltac cases_p Hp := destruct (p_cases _ Hp) as [-> |[-> |[-> |[-> |[-> | ->]]]]].

(** bounds on the gap between the last two points of an edge *)
Definition gap_lo (p : nat) : R := nth p [2; 1; 34 / 100; 1697 / 10000; 1002 / 10000; 659 / 10000]%R 0%R.
Definition gap_hi (p : nat) : R := nth p [2; 1; 35 / 100; 1698 / 10000; 1003 / 10000; 661 / 10000]%R 0%R.
Lemma dec_between m k x y : (Z.leb (x * 10 ^ Z.of_nat k) (10000 * m) && Z.leb (10000 * m) (y * 10 ^ Z.of_nat k))%bool = true -> (IZR x / 10000 <= dec m k <= IZR y / 10000)%R.
Proof.
  intros H. apply andb_true_iff in H. destruct H as (H1 & H2). apply Z.leb_le, IZR_le in H1. apply Z.leb_le, IZR_le in H2. rewrite !mult_IZR in H1, H2.
  assert (P : (0 < IZR (10 ^ Z.of_nat k))%R) by (apply IZR_lt, Z.pow_pos_nonneg; lia). unfold dec. set (t := IZR (10 ^ Z.of_nat k)) in *. clearbody t.
  assert (E : (IZR m = IZR m / t * t)%R) by (field; lra). set (q := (IZR m / t)%R) in *. rewrite E in H1, H2. split; nra.
Qed.
Lemma gap_bounds p : p <= 5 -> (gap_lo p <= 1 - lob (pts1 p) (Spec_Full.sub1 p - 1) <= gap_hi p)%R.
Proof.
  intros Hp. cases_p Hp; unfold gap_lo, gap_hi, lob, Spec_Full.sub1, pts1; cbn [Nat.mul Nat.add Nat.sub nth Z.of_nat Pos.of_succ_nat Pos.succ lobatto_nodes_tab decs map fst snd].
  - assert (Q := dec_between (-1) 0 (-10000) (-10000) eq_refl). lra.
  - assert (Q := dec_between 0 0 0 0 eq_refl). lra.
  - assert (Q : (sqrt 21 * sqrt 21 = 21)%R) by (apply sqrt_sqrt; lra). assert (P := sqrt_pos 21). split; nra.
  - match goal with |- context [dec ?a ?b] => assert (Q := dec_between a b 8302 8303 eq_refl) end. lra.
  - match goal with |- context [dec ?a ?b] => assert (Q := dec_between a b 8997 8998 eq_refl) end. lra.
  - match goal with |- context [dec ?a ?b] => assert (Q := dec_between a b 9339 9341 eq_refl) end. lra.
Qed.

(** key of the far corner: at most k + k*b + k*b*b *)
Lemma key_num q n : 1 <= q <= 116 -> n = INR q -> forall h, h = (/ (7 * n))%R ->
  ((1 + / 10 ^ 14) / h + (1 + / 10 ^ 14) / h * ((1 + 1 + / 10 ^ 14) / h) + (1 + / 10 ^ 14) / h * ((1 + 1 + / 10 ^ 14) / h) * ((1 + 1 + / 10 ^ 14) / h) + 10 <= IZR INT_MAX /\ (1 + 1 + / 10 ^ 14) / h <= IZR INT_MAX)%R.
Proof.
  intros Hq -> h ->. change INT_MAX with 2147483647%Z.
  assert (Hn : (1 <= INR q <= 116)%R) by (split; [change 1%R with (INR 1)|replace 116%R with (INR 116) by (cbn; lra)]; apply le_INR; lia).
  assert (P14 : (0 < / 10 ^ 14 <= / 10 ^ 9)%R) by (split; [apply Rinv_0_lt_compat, pow_lt; lra|apply Rinv_le_contravar; [apply pow_lt; lra|apply Rle_pow; [lra|lia]]]).
  assert (P9 : (/ 10 ^ 9 <= 1 / 1000000000)%R) by (right; field).
  set (a := ((1 + / 10 ^ 14) / / (7 * INR q))%R). set (b := ((1 + 1 + / 10 ^ 14) / / (7 * INR q))%R).
  assert (Ea : a = ((1 + / 10 ^ 14) * (7 * INR q))%R) by (unfold a; unfold Rdiv; rewrite Rinv_inv; reflexivity). assert (Eb : b = ((1 + 1 + / 10 ^ 14) * (7 * INR q))%R) by (unfold b; unfold Rdiv; rewrite Rinv_inv; reflexivity).
  assert (Ba : (0 <= a <= 812.001)%R) by (rewrite Ea; nra). assert (Bb : (0 <= b <= 1624.001)%R) by (rewrite Eb; nra). clearbody a b.
  assert (A1 : (0 <= a * b <= 812.001 * 1624.001)%R) by nra. assert (A2 : (a * b * b <= 812.001 * 1624.001 * 1624.001)%R) by nra. lra.
Qed.
Lemma face_num n : (0 <= n <= 1289)%R -> (n + n * n + n * n * n + 10 <= IZR INT_MAX)%R.
Proof. intros H. change INT_MAX with 2147483647%Z. assert (A1 : (0 <= n * n <= 1289 * 1289)%R) by nra. assert (A2 : (n * n * n <= 1289 * 1289 * 1289)%R) by nra. lra. Qed.

Lemma cube_le n b : n <= b -> n * n * n <= b * b * b.
Proof. intros H. apply Nat.mul_le_mono; [apply Nat.mul_le_mono|]; assumption. Qed.
Lemma cube_count p n : p <= 5 -> n <= cube_limit p ->
  (Z.of_nat (n * n * n * (64 * (Spec_Full.sub1 p * Spec_Full.sub1 p * Spec_Full.sub1 p))) <= 2147483647)%Z /\ (Z.of_nat (n * n * n * (8 * pts1 p ^ 3)) <= 2147483647)%Z.
Proof.
  intros Hp Hl. assert (Z.of_nat (n * n * n) <= Z.of_nat (cube_limit p) * Z.of_nat (cube_limit p) * Z.of_nat (cube_limit p))%Z by (rewrite <- !Nat2Z.inj_mul; apply inj_le, cube_le; exact Hl).
  rewrite (Nat2Z.inj_mul (n * n * n)), (Nat2Z.inj_mul (n * n * n) (8 * _)), (Nat2Z.inj_mul 64), (Nat2Z.inj_mul 8), !(Nat2Z.inj_mul (_ * _) (Spec_Full.sub1 p)), !(Nat2Z.inj_mul (Spec_Full.sub1 p) (Spec_Full.sub1 p)), Nat2Z.inj_pow. set (c := Z.of_nat (n * n * n)) in *. clearbody c. clear Hl. revert H. cases_p Hp; unfold Spec_Full.sub1, pts1; cbn [Nat.mul Nat.add Nat.sub]; unfold cube_limit; cbn [nth]; change (Z.of_nat 116) with 116%Z; change (Z.of_nat 58) with 58%Z; lia.
Qed.

Section Cube.
  Variables (p n ne : nat) (m : cmesh) (N : nat -> nat -> nat) (X : nat -> nat -> R) (E : nat -> nat -> Z).
  Hypotheses (Hp : p <= 5) (HM : cdescribes m N X) (Ec : cm_cells m = S ne) (HU : unit_cube n (S ne) (cm_nodes m) 1 N X E) (H2 : 2 <= n \/ 1 <= p).
  Let s : nat -> R := (fun _ => / INR n)%R.
  Let o : nat -> R := (fun _ => 0)%R.

  Lemma cn_pos : 1 <= n.
  Proof. destruct HU as (A & _). destruct n; [cbn in A; lia|lia]. Qed.
  Lemma cn_R : (1 <= INR n)%R.
  Proof. change 1%R with (INR 1). apply le_INR, cn_pos. Qed.
  Lemma cs_pos : (0 < / INR n <= 1)%R.
  Proof. assert (A := cn_R). split; [apply Rinv_0_lt_compat; lra|]. apply Rmult_le_reg_r with (INR n); [lra|]. rewrite Rinv_l by lra. lra. Qed.
  Lemma cHB : box_elements 1 (S ne) N X o s E.
  Proof. apply HU. Qed.
  Lemma cHs d : d < 3 -> (0 < s 0%nat <= s d)%R.
  Proof. intros _. unfold s. assert (A := cs_pos). lra. Qed.
  Lemma cHbig : (s 0%nat <= 7 * INR (Nat.max 1 p))%R.
  Proof. unfold s. assert (A := cs_pos). assert (1 <= INR (Nat.max 1 p))%R by (change 1%R with (INR 1); apply le_INR; lia). lra. Qed.
  Lemma c_at x y z : x < n -> y < n -> z < n -> exists e, e < S ne /\ E e 0 = Z.of_nat x /\ E e 1 = Z.of_nat y /\ E e 2 = Z.of_nat z.
  Proof.
    intros Hx Hy Hz. destruct HU as (_ & _ & _ & _ & A & _). destruct (A (tri x y z)) as (e & He & Q).
    - intros [|[|[|d]]] Hd; cbn [tri]; lia.
    - exists e. split; [exact He|]. split; [apply (Q 0); lia|]. split; [apply (Q 1); lia|apply (Q 2); lia].
  Qed.
  Lemma cH0 : p = 0 -> exists e l e' l', e < S ne /\ l < 8 /\ e' < S ne /\ l' < 8 /\ e <> e' /\ 0 < e + l /\ 0 < e' + l' /\ forall d, d < 3 -> X (N e l) d = X (N e' l') d.
  Proof.
    intros Ep. assert (Hn : 2 <= n) by lia. destruct (c_at 0 0 0) as (e & He & E0 & E1 & E2); [lia|lia|lia|]. destruct (c_at 1 0 0) as (e' & He' & E0' & E1' & E2'); [lia|lia|lia|].
    exists e, 7, e', 6. split; [exact He|]. split; [lia|]. split; [exact He'|]. split; [lia|]. split; [intros ->; lia|]. split; [lia|]. split; [lia|].
    destruct (cHB e 1 1 1 He ltac:(lia) ltac:(lia) ltac:(lia)) as (A0 & A1 & A2). destruct (cHB e' 0 1 1 He' ltac:(lia) ltac:(lia) ltac:(lia)) as (B0 & B1 & B2).
    cbn [Nat.add Nat.mul] in A0, A1, A2, B0, B1, B2. rewrite E0, E1, E2 in *. rewrite E0', E1', E2' in *. cbn in A0, A1, A2, B0, B1, B2.
    intros [|[|[|d]]] Hd; [rewrite A0, B0|rewrite A1, B1|rewrite A2, B2|lia]; try reflexivity. field.
  Qed.

  Theorem cube32_fit : n <= cube_limit p -> refine_mesh32 p m = refine_mesh p m.
  Proof.
    intros Hl. assert (Hn := cn_pos). assert (Rn := cn_R). assert (Sp := cs_pos).
    assert (Inj := proj2 (proj2 (proj2 (proj2 (proj2 HU))))).
    assert (Gb := gap_bounds p Hp). set (g := (1 - lob (pts1 p) (Spec_Full.sub1 p - 1))%R) in *.
    assert (Ln : (INR n <= INR (cube_limit p))%R) by (apply le_INR; exact Hl).
    assert (Hq : 1 <= Nat.max 1 p * n <= 116) by (split; [nia|]; clear -Hp Hl; revert Hl; cases_p Hp; cbn; lia).
    assert (Gp : (0 < gap_lo p /\ (1 + / 10 ^ 12) * (6 * INR (cube_limit p)) <= 1289 * gap_lo p)%R).
    { assert (P12 : (0 < / 10 ^ 12 <= 1 / 100000)%R) by (split; [apply Rinv_0_lt_compat, pow_lt; lra|]; replace (1 / 100000)%R with (/ 10 ^ 5)%R by field; apply Rinv_le_contravar; [apply pow_lt; lra|apply Rle_pow; [lra|lia]]).
      set (x := (/ 10 ^ 12)%R) in *. clearbody x. clear -Hp P12. cases_p Hp; unfold gap_lo, cube_limit; cbn; lra. }
    assert (Eh : node_bin p (s 0%nat) = (/ (7 * INR (Nat.max 1 p * n)))%R).
    { unfold node_bin, s. rewrite mult_INR. field. split; [lra|]. apply not_0_INR. lia. }
    destruct (key_num _ _ Hq eq_refl _ Eh) as (K1 & K2).
    assert (F : (0 <= (1 + / 10 ^ 12) / (s 0%nat * (g / 2) / 3) <= 1289)%R).
    { assert (P12 : (0 < / 10 ^ 12)%R) by (apply Rinv_0_lt_compat, pow_lt; lra). set (x := (/ 10 ^ 12)%R) in *. clearbody x.
      replace ((1 + x) / (s 0%nat * (g / 2) / 3))%R with ((1 + x) * (6 * INR n) * / g)%R by (unfold s; field; split; lra).
      assert (Ig : (0 < / g)%R) by (apply Rinv_0_lt_compat; lra). split; [apply Rmult_le_pos; [|lra]; nra|].
      apply Rmult_le_reg_r with g; [lra|]. rewrite Rmult_assoc, Rinv_l, Rmult_1_r by lra. nra. }
    apply (boxes32_fit p ne m N X o s E 0 Hp HM Ec cHB ltac:(lia) cHs cHbig cH0 Inj (fun _ => 0%R) (fun _ => 1%R)).
    - apply HU.
    - intros i Hi. assert (0 < 10 ^ 16)%R by (apply pow_lt; lra). lra.
    - intros i Hi. exact K2.
    - exact K1.
    - exact (face_num _ F).
    - assert (Ene := proj1 HU). rewrite Ene. change INT_MAX with 2147483647%Z. apply (cube_count p n Hp Hl).
    - assert (Ene := proj1 HU). rewrite Ene. change INT_MAX with 2147483647%Z. apply (cube_count p n Hp Hl).
  Qed.

  Lemma cube_corners : exists e e', e < S ne /\ e' < S ne /\ (forall d, d < 3 -> E e d = 0%Z) /\ (forall d, d < 3 -> E e' d = (Z.of_nat n - 1)%Z) /\
    N e 0 < cm_nodes m /\ N e' 7 < cm_nodes m /\ (forall d, d < 3 -> X (N e 0) d = 0%R /\ X (N e' 7) d = 1%R).
  Proof.
    assert (Hn := cn_pos). assert (Rn := cn_R). destruct (c_at 0 0 0) as (e & He & E0 & E1 & E2); [lia|lia|lia|]. destruct (c_at (n - 1) (n - 1) (n - 1)) as (e' & He' & E0' & E1' & E2'); [lia|lia|lia|].
    exists e, e'. split; [exact He|]. split; [exact He'|].
    split; [intros [|[|[|d]]] Hd; [exact E0|exact E1|exact E2|lia]|]. split; [intros [|[|[|d]]] Hd; [rewrite E0'|rewrite E1'|rewrite E2'|]; lia|].
    split; [apply (proj1 HM); lia|]. split; [apply (proj1 HM); lia|].
    destruct (cHB e 0 0 0 He ltac:(lia) ltac:(lia) ltac:(lia)) as (A0 & A1 & A2). destruct (cHB e' 1 1 1 He' ltac:(lia) ltac:(lia) ltac:(lia)) as (B0 & B1 & B2).
    cbn [Nat.add Nat.mul] in A0, A1, A2, B0, B1, B2. rewrite E0 in A0. rewrite E1 in A1. rewrite E2 in A2. rewrite E0' in B0. rewrite E1' in B1. rewrite E2' in B2.
    rewrite <- INR_IZR_INZ, minus_INR in B0, B1, B2 by lia. change (INR 1) with 1%R in *. change (INR 0) with 0%R in *. cbn in A0, A1, A2. unfold o, s in *.
    intros [|[|[|d]]] Hd; [rewrite A0, B0|rewrite A1, B1|rewrite A2, B2|lia]; split; field; lra.
  Qed.

  Theorem cube_ok : exists rc, refine_mesh p m = Ok rc.
  Proof.
    destruct (box_facts_ok p ne m N X o s E 0 Hp HM Ec cHB ltac:(lia) cHs cHbig cH0) as (r & C & nd & CN & CX & Er & EC & _).
    exists (r, C). unfold refine_mesh. rewrite Er. cbn [bind]. rewrite Ec, pts1_model, EC. reflexivity.
  Qed.

  Theorem cube32_over : cube_limit p < n -> refine_mesh32 p m = Err Overflow.
  Proof.
    intros Hl. assert (Hn := cn_pos). assert (Rn := cn_R). assert (Sp := cs_pos).
    destruct cube_corners as (e & e' & He & He' & Ee & Ee' & L0 & L7 & XX).
    destruct (le_lt_dec p 2) as [P2|P2].
    - assert (Hq : (117 <= Z.of_nat (Nat.max 1 p * n))%Z).
      { clear -P2 Hl. assert (C : p = 0 \/ p = 1 \/ p = 2) by lia. revert Hl. unfold cube_limit. destruct C as [-> |[-> | ->]]; cbn [nth Nat.max]; lia. }
      unfold refine_mesh32. replace (refine_cells32 p m) with (@Err refined Overflow); [reflexivity|]. symmetry.
      set (q := Nat.max 1 p * n) in *. assert (Rq : (117 <= INR q)%R) by (rewrite INR_IZR_INZ; apply (IZR_le 117); exact Hq).
      assert (Eh : node_bin p (s 0%nat) = (/ (7 * INR q))%R).
      { unfold node_bin, s, q. rewrite mult_INR. field. split; [lra|]. apply not_0_INR. lia. }
      assert (Hh : (0 < node_bin p (s 0%nat) <= 1)%R).
      { rewrite Eh. split; [apply Rinv_0_lt_compat; lra|]. rewrite <- Rinv_1. apply Rinv_le_contravar; lra. }
      assert (HSp : corner_spacing N X ne (s 0%nat)) by (apply (elem_spacing p ne m N X o s E 0 Hp Ec cHB ltac:(lia) cHs); lia).
      destruct (XX 0 ltac:(lia)) as (A0 & B0). destruct (XX 1 ltac:(lia)) as (A1 & B1). destruct (XX 2 ltac:(lia)) as (A2 & B2).
      apply (cells32_large p m N X (s 0%nat) ne ltac:(lia) HM Ec HSp Hh e' 7 (N e 0) (N e' 7) (N e 0) (N e' 7) (N e 0) (14 * Z.of_nat q) (14 * Z.of_nat q) (7 * Z.of_nat q)); try assumption; try lia.
      + rewrite A0, B0, Eh, mult_IZR, <- INR_IZR_INZ. right. field. lra.
      + rewrite A1, B1, Eh, mult_IZR, <- INR_IZR_INZ. right. field. lra.
      + rewrite A2, B2, Eh, mult_IZR, <- INR_IZR_INZ. right. field. lra.
      + change INT_MAX with 2147483647%Z. assert (117 * 117 * 117 <= Z.of_nat q * Z.of_nat q * Z.of_nat q)%Z by (repeat apply Z.mul_le_mono_nonneg; lia). nia.
    - assert (Gb := gap_bounds p Hp). set (g := (1 - lob (pts1 p) (Spec_Full.sub1 p - 1))%R) in *.
      assert (K : (1291 * g <= 6 * INR n)%R).
      { assert (Ln : (INR (S (cube_limit p)) <= INR n)%R) by (apply le_INR; exact Hl). clear -P2 Hp Gb Ln. clearbody g. assert (C : p = 3 \/ p = 4 \/ p = 5) by lia. destruct C as [-> |[-> | ->]]; unfold gap_hi, gap_lo, cube_limit in *; cbn in Gb, Ln; lra. }
      apply (boxes32_faces_over p ne m N X o s E 0 Hp HM Ec cHB ltac:(lia) cHs cHbig cH0 e e' 1291 1291 1291 He He'); try lra; fold g.
      all: rewrite Ee, Ee' by lia; rewrite minus_IZR, <- INR_IZR_INZ; unfold s; replace (/ INR n * (INR n - 1 + 1 - 0))%R with 1%R by (field; lra); replace (1291 * (/ INR n * (g / 2) / 3))%R with ((1291 * g) * (/ (6 * INR n)))%R by (field; lra);
        apply Rmult_le_reg_r with (6 * INR n)%R; [lra|]; rewrite Rmult_assoc, Rinv_l by lra; lra.
  Qed.
End Cube.

(** * refine_high_order_mesh on the unit cube *)
Section HighCube.
  Variables (Z0 w0 : nat -> R) (m : mesh R) (n : nat) (N : nat -> nat -> nat) (X : nat -> nat -> R) (E : nat -> nat -> Z).
  Let p := m_order m.
  Let ne := m_num_elems m.
  Hypotheses (Hp : 1 <= p <= 9) (Hn : 1 <= n) (HM : describes m ((p + 1) ^ 3) N X) (HU : unit_cube n ne (m_num_nodes m) p N X E).
  Let s : nat -> R := (fun _ => / INR n)%R.
  Let o : nat -> R := (fun _ => 0)%R.
  Let q := p * p * n.

  Lemma hcR : (1 <= INR n)%R /\ (1 <= INR p)%R.
  Proof. change 1%R with (INR 1). split; apply le_INR; lia. Qed.
  Lemma hc_ne : 0 < ne.
  Proof. destruct HU as (-> & _). nia. Qed.
  Lemma hcHB : box_elements p ne N X o s E.
  Proof. apply HU. Qed.
  Lemma hcL : least_planar p ne N X (/ INR n / INR p)%R.
  Proof. apply (box_least p ne N X o s E ltac:(lia) hc_ne hcHB). unfold s. destruct hcR. apply Rinv_0_lt_compat. lra. Qed.
  Lemma hc_h : (/ INR n / INR p / (7 * INR p) = / (7 * INR q))%R.
  Proof. destruct hcR. unfold q. rewrite !mult_INR. field. lra. Qed.
  Lemma hc_q : (1 <= INR q)%R.
  Proof. change 1%R with (INR 1). apply le_INR. unfold q. nia. Qed.
  Lemma hc_h1 : (0 < / INR n / INR p / (7 * INR p) <= 1)%R.
  Proof. rewrite hc_h. assert (Q := hc_q). split; [apply Rinv_0_lt_compat; lra|]. rewrite <- Rinv_1. apply Rinv_le_contravar; lra. Qed.
  Lemma num_max_1 : (1 <= NUM_MAX)%R.
  Proof. unfold NUM_MAX. assert (1 <= 2 ^ 1023)%R by (apply pow_R1_Rle; lra). assert (/ 2 ^ 52 <= 1)%R by (rewrite <- Rinv_1; apply Rinv_le_contravar; [lra|apply pow_R1_Rle; lra]). nra. Qed.
  Lemma hc_d : (/ INR n / INR p <= NUM_MAX)%R.
  Proof.
    assert (Q := num_max_1). destruct hcR. apply Rle_trans with 1%R; [|exact Q]. replace (/ INR n / INR p)%R with (/ (INR n * INR p))%R by (field; lra).
    rewrite <- Rinv_1. apply Rinv_le_contravar; nra.
  Qed.

  Theorem high_cube32_fit : p * p * n <= 116 -> refine_high_order_mesh32 Z0 w0 m = refine_high_order_mesh Z0 w0 m.
  Proof.
    intros Hl. fold q in Hl. destruct hcR as (Rn & Rp). assert (Q1 : 1 <= q) by (unfold q; nia).
    destruct (key_num q _ (conj Q1 Hl) eq_refl _ hc_h) as (K1 & K2).
    apply (high32_small Z0 w0 m N X (/ INR n / INR p)%R Hp hc_ne HM hcL hc_d hc_h1 (fun _ => 0%R) (fun _ => 1%R)).
    - apply HU.
    - intros i Hi. assert (Q := num_max_1). split; [lra|]. unfold NUM_MIN. rewrite Rplus_0_l. rewrite <- Rinv_1. apply Rinv_le_contravar; [lra|apply pow_R1_Rle; lra].
    - intros g Hg. apply (box_in_range m N X o s E g Hp HM hcHB); [|exact Hg]. intros d Hd. unfold s. apply Rinv_0_lt_compat. lra.
    - fold p ne. rewrite INR_IZR_INZ. apply IZR_le. change INT_MAX with 2147483647%Z. destruct HU as (En & _). rewrite En.
      assert (A : (2 * p + 1) * n <= 348) by (unfold q in Hl; nia). assert (A' := cube_le _ _ A). replace (n * n * n * (2 * p + 1) ^ 3) with ((2 * p + 1) * n * ((2 * p + 1) * n) * ((2 * p + 1) * n)) by (cbn [Nat.pow]; ring).
      apply inj_le in A'. etransitivity; [exact A'|]. rewrite !Nat2Z.inj_mul. change (Z.of_nat 348) with 348%Z. lia.
    - intros i Hi. exact K2.
    - exact K1.
  Qed.

  Theorem high_cube32_over : 116 < p * p * n -> refine_high_order_mesh32 Z0 w0 m = Err Overflow.
  Proof.
    intros Hl. fold q in Hl. destruct hcR as (Rn & Rp). assert (Rq : (117 <= INR q)%R) by (rewrite INR_IZR_INZ; apply (IZR_le 117); lia).
    destruct HU as (_ & _ & HB & _ & A & _). 
    destruct (A (fun _ => 0)) as (e & He & Ee); [intros; lia|]. destruct (A (fun _ => n - 1)) as (e' & He' & Ee'); [intros; lia|].
    set (v := p + p * (p + 1) + p * (p + 1) * (p + 1)).
    assert (XX : forall d, d < 3 -> X (N e 0) d = 0%R /\ X (N e' v) d = 1%R).
    { destruct (HB e 0 0 0 He ltac:(lia) ltac:(lia) ltac:(lia)) as (A0 & A1 & A2). destruct (HB e' p p p He' ltac:(lia) ltac:(lia) ltac:(lia)) as (B0 & B1 & B2). fold v in B0, B1, B2.
      rewrite Ee in A0, A1, A2 by lia. rewrite Ee' in B0, B1, B2 by lia. rewrite <- INR_IZR_INZ, minus_INR in B0, B1, B2 by lia. change (INR 1) with 1%R in *. change (INR 0) with 0%R in *. cbn [Nat.add Nat.mul Z.of_nat] in A0, A1, A2. cbv zeta in A0, A1, A2.
      intros [|[|[|d]]] Hd; [rewrite A0, B0|rewrite A1, B1|rewrite A2, B2|lia]; split; field; lra. }
    assert (Lv : v < (p + 1) ^ 3) by (apply grid3_lt; lia).
    assert (L0 : N e 0 < m_num_nodes m) by (apply (proj1 HM); [exact He|lia]). assert (L7 : N e' v < m_num_nodes m) by (apply (proj1 HM); [exact He'|exact Lv]).
    destruct (XX 0 ltac:(lia)) as (A0 & B0). destruct (XX 1 ltac:(lia)) as (A1 & B1). destruct (XX 2 ltac:(lia)) as (A2 & B2).
    assert (Eh := hc_h).
    apply (high32_large Z0 w0 m N X (/ INR n / INR p)%R Hp hc_ne HM hcL hc_d hc_h1 e' 1 1 1 (N e 0) (N e' v) (N e 0) (N e' v) (N e 0) (14 * Z.of_nat q) (14 * Z.of_nat q) (7 * Z.of_nat q)); fold p; try assumption; try lia; rewrite ?Nat.mul_1_l; fold v.
    + rewrite A0, B0, Eh, mult_IZR, <- INR_IZR_INZ. right. field. lra.
    + rewrite A1, B1, Eh, mult_IZR, <- INR_IZR_INZ. right. field. lra.
    + rewrite A2, B2, Eh, mult_IZR, <- INR_IZR_INZ. right. field. lra.
    + change INT_MAX with 2147483647%Z. assert (117 * 117 * 117 <= Z.of_nat q * Z.of_nat q * Z.of_nat q)%Z by (repeat apply Z.mul_le_mono_nonneg; lia). nia.
  Qed.
End HighCube.
