(** refine_high_order_mesh with ints. *)
From Coq Require Import Reals List Arith ZArith Lra Lia Bool.
Import ListNotations.
Require Import Verif.Base Verif.RBase Verif.Model_Geom Verif.Proof_Geom Verif.Model_Vtk Verif.Model_Refine Verif.Model_Conn Verif.Model_Ref Verif.Model_High Verif.Proof_High Verif.Proof_High2 Verif.Proof_High3
  Verif.Model_Full Verif.Model_Int Verif.Spec_Patch Verif.Spec_High Verif.Spec_Full Verif.Spec_Int Verif.Proof_Full Verif.Proof_Full3 Verif.Spec_Lagrange Verif.Lagrange_Math Verif.Proof_LagElem Verif.Proof_Lob Verif.Proof_Int Verif.Proof_Int2 Verif.Model_Patch.
Local Open Scope nat_scope.

Lemma high_box_top m nl N X mx mn : describes m nl N X -> high_box m = Ok (mx, mn) -> forall d, d < 3 -> mx d = NUM_MIN \/ exists n, n < m_num_nodes m /\ mx d = X n d.
Proof.
  intros (_ & HX). unfold high_box.
  set (A := fun (s : (nat -> R) * (nat -> R)) => forall d, d < 3 -> fst s d = NUM_MIN \/ exists n, n < m_num_nodes m /\ fst s d = X n d).
  edestruct (loop_inv (fun (v : nat) s => A s) (m_num_nodes m)) as ((mx', mn') & E & HA).
  3:{ intros Q. rewrite E in Q. injection Q as -> ->. exact HA. }
  - intros d Hd. left. reflexivity.
  - intros v s Hv HA.
    destruct (loop_inv (fun (i : nat) (s : (nat -> R) * (nat -> R)) => A s) 3 (fun i '(mx, mn) => do x <- node_coords m v i; Ok (fset mx i (Rmax (mx i) x), fset mn i (Rmin (mn i) x))) s) as (s' & E' & HA').
    + exact HA.
    + intros i (mx1, mn1) Hi A1. cbn beta iota. rewrite HX by assumption. cbn [bind]. eexists. split; [reflexivity|]. unfold A in *. cbn [fst snd] in *. unfold fset.
      intros d Hd. destruct (Nat.eqb_spec d i) as [->|]; [|apply A1; exact Hd]. destruct (Rle_dec (mx1 i) (X v i)) as [L|L].
      * rewrite Rmax_right by exact L. right. exists v. auto.
      * rewrite Rmax_left by lra. apply A1. exact Hd.
    + exists s'. split; [exact E'|exact HA'].
Qed.

Section High.
  Variables (Z0 w0 : nat -> R) (m : mesh R) (N : nat -> nat -> nat) (X : nat -> nat -> R) (d : R).
  Let p := m_order m.
  Let ng := (2 * p + 1) ^ 3.
  Let ne := m_num_elems m.
  Let h := (d / (7 * INR p))%R.
  Hypotheses (Hp : 1 <= p <= 9) (Hne : 0 < ne) (HM : describes m ((p + 1) ^ 3) N X) (HL : least_planar p ne N X d) (Hd : (d <= NUM_MAX)%R) (Hh : (0 < h <= 1)%R).

  Lemma hp_pos : (1 <= INR p)%R.
  Proof. change 1%R with (INR 1). apply le_INR. lia. Qed.
  Lemma d_pos : (0 < d <= NUM_MAX)%R.
  Proof. split; [|exact Hd]. assert (P := hp_pos). replace d with (h * (7 * INR p))%R by (unfold h; field; lra). apply Rmult_lt_0_compat; lra. Qed.
  Lemma high_keys32_unfold pts mx mn : high_box m = Ok (mx, mn) -> high_keys32 m pts = keys32 (ne * ng) h mx mn pts.
  Proof.
    intros E. unfold high_keys32. rewrite E. cbn [bind].
    rewrite (high_spacing_ok m _ N X d HM) by (try assumption; try (fold p; lia); try (fold p; cbn [Nat.pow]; nia)). cbn [bind]. fold p. reflexivity.
  Qed.
  Lemma high_box_of : exists mx mn, high_box m = Ok (mx, mn) /\
    (forall n d, n < m_num_nodes m -> d < 3 -> (mn d <= X n d <= mx d)%R) /\ (forall d, d < 3 -> (mn d <= mx d)%R) /\
    (forall d lo, d < 3 -> (lo <= NUM_MAX)%R -> (forall n, n < m_num_nodes m -> (lo <= X n d)%R) -> (lo <= mn d)%R) /\
    (forall d hi, d < 3 -> (NUM_MIN <= hi)%R -> (forall n, n < m_num_nodes m -> (X n d <= hi)%R) -> (mx d <= hi)%R).
  Proof.
    destruct (high_box_ok m _ N X HM) as (mx & mn & E & Hb & Hn). assert (Hx := high_box_top m _ N X mx mn HM E). exists mx, mn. split; [exact E|]. split; [exact Hb|].
    split. { intros i Hi. destruct HM as (HN & _). destruct (HN 0 0 Hne ltac:(cbn [Nat.pow]; nia)) as (_ & Q). assert (Q' := Hb _ i Q Hi). lra. }
    split; intros i v Hi Hv Hall.
    - destruct (Hn i Hi) as [->|(n & Hnn & ->)]; [exact Hv|apply Hall; exact Hnn].
    - destruct (Hx i Hi) as [->|(n & Hnn & ->)]; [exact Hv|apply Hall; exact Hnn].
  Qed.

  Lemma high32_fit mx mn : high_box m = Ok (mx, mn) -> (forall d, d < 3 -> (mn d <= mx d)%R) ->
    (Z.of_nat (ne * ng) <= 2147483647)%Z -> (forall d, d < 3 -> (bins h mn mx d <= 2147483647)%Z) ->
    (forall g, g < ne * ng -> (nkey h mn mx (gauss_pos p N X g) + 10 <= 2147483647)%Z) ->
    refine_high_order_mesh32 Z0 w0 m = refine_high_order_mesh Z0 w0 m.
  Proof.
    intros E Hmm HS HB HK. unfold refine_high_order_mesh32, refine_high_order_mesh. cbv zeta. fold p ne ng.
    rewrite fits_ok. 2:{ assert (p * 2 * (p * 2) * (p * 2) <= ng) by (unfold ng; cbn [Nat.pow]; nia). nia. }
    cbn [bind]. rewrite fits_ok by exact HS. cbn [bind].
    destruct (high_points_ok Z0 w0 m N X Hp HM) as (pts & -> & _ & Gp). cbn [bind]. fold p ng ne in Gp.
    assert (Hh' : (0 < h)%R) by lra.
    destruct (keys32_fit h mn mx Hh' (bins_pos h mn mx Hh Hmm) (ne * ng) pts (gauss_pos p N X) Gp HB HK) as (ks & Q). rewrite <- (high_keys32_unfold pts mx mn E) in Q.
    destruct (so_high_keys m pts) as [Q'|Q']; [|rewrite Q' in Q; discriminate]. rewrite Q'. reflexivity.
  Qed.
  Lemma high32_over mx mn g : high_box m = Ok (mx, mn) -> (forall d, d < 3 -> (mn d <= mx d)%R) ->
    g < ne * ng -> (2147483647 < nkey h mn mx (gauss_pos p N X g) + 10)%Z -> refine_high_order_mesh32 Z0 w0 m = Err Overflow.
  Proof.
    intros E Hmm Hg HK. destruct (so_refine_high Z0 w0 m) as [Q|Q]; [|exact Q]. exfalso.
    destruct (refine_high_ok Z0 w0 m N X d Hp Hne HM HL d_pos) as (r & _ & _ & _ & _ & Er & _). rewrite Er in Q.
    unfold refine_high_order_mesh32 in Q. cbv zeta in Q.
    destruct (fits _); cbn [bind] in Q; [|discriminate]. destruct (fits _); cbn [bind] in Q; [|discriminate].
    destruct (high_points_ok Z0 w0 m N X Hp HM) as (pts & Ep & _ & Gp). rewrite Ep in Q. cbn [bind] in Q. fold p ng ne in Gp.
    destruct (high_keys32 m pts) as [ks|] eqn:Ek; cbn [bind] in Q; [|discriminate]. rewrite (high_keys32_unfold pts mx mn E) in Ek.
    assert (Hh' : (0 < h)%R) by lra.
    destruct (keys32_val h mn mx Hh' (bins_pos h mn mx Hh Hmm) (ne * ng) pts (gauss_pos p N X) Gp ks Ek) as (_ & V). specialize (V g Hg). lia.
  Qed.

  Theorem high32_small lo L : spans (m_num_nodes m) X lo L -> (forall i, i < 3 -> (lo i <= NUM_MAX /\ NUM_MIN <= lo i + L i)%R) ->
    (forall g, g < ne * ng -> in_range (m_num_nodes m) X (gauss_pos p N X g)) ->
    let l := fun i => ((L i + / 10 ^ 14) / h)%R in let B := fun i => ((L i + 1 + / 10 ^ 14) / h)%R in
    (INR (ne * ng) <= IZR INT_MAX)%R -> (forall i, i < 3 -> (B i <= IZR INT_MAX)%R) ->
    (l 0%nat + l 1%nat * B 0%nat + l 2%nat * B 0%nat * B 1%nat + 10 <= IZR INT_MAX)%R ->
    refine_high_order_mesh32 Z0 w0 m = refine_high_order_mesh Z0 w0 m.
  Proof.
    intros HS HR HI l B H1 H2 H3. destruct high_box_of as (mx & mn & E & Hb & Hmm & Hlo & Hhi). change INT_MAX with 2147483647%Z in *.
    assert (P14 : (0 < / 10 ^ 14)%R) by (apply Rinv_0_lt_compat, pow_lt; lra).
    assert (Bn : forall i, i < 3 -> (lo i <= mn i)%R) by (intros i Hi; apply Hlo; [exact Hi|apply HR; exact Hi|intros n Hn; apply (HS n i Hn Hi)]).
    assert (Bx : forall i, i < 3 -> (mx i <= lo i + L i)%R) by (intros i Hi; apply Hhi; [exact Hi|apply HR; exact Hi|intros n Hn; apply (HS n i Hn Hi)]).
    assert (Ih : (0 < / h)%R) by (apply Rinv_0_lt_compat; lra).
    assert (Pb : forall g i, g < ne * ng -> i < 3 -> (mn i <= gauss_pos p N X g i <= mx i)%R).
    { intros g i Hg Hi. destruct (HI g Hg i Hi) as (a & b & Ha & Hb' & Q). assert (B1 := Hb a i Ha Hi). assert (B2 := Hb b i Hb' Hi). lra. }
    assert (BB : forall i, i < 3 -> ((mx i - mn i + 1 + / 10 ^ 14) / h <= B i)%R).
    { intros i Hi. unfold B, Rdiv. apply Rmult_le_compat_r; [lra|]. specialize (Bn i Hi). specialize (Bx i Hi). lra. }
    assert (BL : forall g i, g < ne * ng -> i < 3 -> ((gauss_pos p N X g i - mn i + / 10 ^ 14) / h <= l i)%R).
    { intros g i Hg Hi. unfold l, Rdiv. apply Rmult_le_compat_r; [lra|]. assert (Q := Pb g i Hg Hi). specialize (Bn i Hi). specialize (Bx i Hi). lra. }
    apply (high32_fit mx mn E Hmm).
    - apply le_IZR. rewrite <- INR_IZR_INZ. exact H1.
    - intros i Hi. apply le_IZR. eapply Rle_trans; [apply bins_le; [exact Hh|exact Hmm|exact Hi|apply BB; exact Hi]|]. apply H2. exact Hi.
    - intros g Hg. apply le_IZR. rewrite plus_IZR. eapply Rle_trans; [|exact H3]. apply Rplus_le_compat_r.
      apply nkey_le; try exact Hh; try exact Hmm; try (apply BB; lia); try (apply BL; [exact Hg|lia]). intros i Hi. apply (Pb g i Hg Hi).
  Qed.

  (** an element's corner is one of its points *)
  Lemma high_corner_point e a b c i : e < ne -> a < 2 -> b < 2 -> c < 2 -> i < 3 ->
    exists g, g < ne * ng /\ gauss_pos p N X g i = X (N e (a * p + b * p * (p + 1) + c * p * (p + 1) * (p + 1))) i.
  Proof.
    intros He Ha Hb Hc Hi. set (n1 := 2 * p + 1) in *.
    assert (Bd : forall b, b < 2 -> b * (2 * p) < n1) by (intros [|[|q]] Hq; unfold n1; lia).
    assert (Bp : forall b, b < 2 -> b * p <= p) by (intros [|[|q]] Hq; lia).
    exists (e * ng + (a * (2 * p) + b * (2 * p) * n1 + c * (2 * p) * n1 * n1)). split.
    - assert (a * (2 * p) + b * (2 * p) * n1 + c * (2 * p) * n1 * n1 < n1 ^ 3) by (apply grid3_lt; apply Bd; assumption). unfold ng. fold n1. nia.
    - unfold ng. fold n1. assert (G := gauss_pos_at p N X e (a * (2 * p)) (b * (2 * p)) (c * (2 * p)) i). cbv zeta in G. fold n1 in G. rewrite G by (apply Bd; assumption).
      assert (F := gap_facts_ok p ltac:(lia)). assert (E1 : pts1 p = n1) by (unfold pts1, n1; clear - Hp; destruct p; [lia|reflexivity]). assert (E2 : Spec_Full.sub1 p = 2 * p) by (unfold Spec_Full.sub1; rewrite E1; unfold n1; lia). rewrite E1, E2 in F. destruct F as (F0 & F1 & _).
      assert (V0 := vertex1_0 p). assert (V1 := vertex1_p p ltac:(lia)).
      assert (FV : forall b, b < 2 -> lob n1 (b * (2 * p)) = vertex1 p (b * p)) by (intros [|[|q]] Hq; [cbn [Nat.mul]; congruence|rewrite !Nat.mul_1_l; congruence|lia]).
      rewrite !FV by assumption. unfold geo. assert (Ba := Bp a Ha). assert (Bb := Bp b Hb). assert (Bc := Bp c Hc). rewrite field3_node by (try (apply (vertex1_distinct p); lia); lia). reflexivity.
  Qed.

  Theorem high32_large e a b c a0 b0 a1 b1 a2 (k0 k1 k2 : Z) : e < ne -> a < 2 -> b < 2 -> c < 2 ->
    a0 < m_num_nodes m -> b0 < m_num_nodes m -> a1 < m_num_nodes m -> b1 < m_num_nodes m -> a2 < m_num_nodes m -> (0 <= k0)%Z -> (0 <= k1)%Z -> (0 <= k2)%Z ->
    (IZR k0 * h <= X b0 0%nat - X a0 0%nat + 1)%R -> (IZR k1 * h <= X b1 1%nat - X a1 1%nat + 1)%R ->
    (IZR k2 * h <= X (N e (a * p + b * p * (p + 1) + c * p * (p + 1) * (p + 1))) 2%nat - X a2 2%nat)%R ->
    (INT_MAX < k0 * k1 * k2 + 10)%Z -> refine_high_order_mesh32 Z0 w0 m = Err Overflow.
  Proof.
    intros He Ha Hb' Hc Ha0 Hb0 Ha1 Hb1 Ha2 P0 P1 P2 H0 H1 H2 HK. destruct high_box_of as (mx & mn & E & Hb & Hmm & _). change INT_MAX with 2147483647%Z in *.
    assert (P14 : (0 < / 10 ^ 14)%R) by (apply Rinv_0_lt_compat, pow_lt; lra).
    destruct (high_corner_point e a b c 2 He Ha Hb' Hc ltac:(lia)) as (g & Hg & Eg). apply (high32_over mx mn g E Hmm Hg).
    assert (Q := nkey_ge h mn mx Hh Hmm (gauss_pos p N X g) k0 k1 k2 P0 P1 P2). rewrite Eg in Q.
    assert (U0 := Hb a0 0 Ha0 ltac:(lia)). assert (U1 := Hb b0 0 Hb0 ltac:(lia)). assert (U2 := Hb a1 1 Ha1 ltac:(lia)). assert (U3 := Hb b1 1 Hb1 ltac:(lia)). assert (U4 := Hb a2 2 Ha2 ltac:(lia)).
    specialize (Q ltac:(lra) ltac:(lra) ltac:(lra)). lia.
  Qed.
End High.
