(** Bounds on the node keys; refine_cells with ints. *)
From Coq Require Import Reals List Arith ZArith Lra Lia Bool.
Import ListNotations.
Require Import Verif.Base Verif.RBase Verif.Model_Geom Verif.Proof_Geom Verif.Model_Vtk Verif.Model_Refine Verif.Model_Conn Verif.Model_Ref Verif.Model_High Verif.Proof_High2 Verif.Proof_High3
  Verif.Model_Full Verif.Model_Int Verif.Spec_Patch Verif.Spec_High Verif.Spec_Full Verif.Spec_Int Verif.Proof_Full Verif.Proof_Full3 Verif.Prop_Full Verif.Spec_Lagrange Verif.Lagrange_Math Verif.Proof_LagElem Verif.Proof_High Verif.Proof_Int Verif.Model_Patch.
Local Open Scope nat_scope.

Section Bounds.
  Variables (h : R) (mn mx : nat -> R).
  Hypotheses (Hh : (0 < h <= 1)%R) (Hmm : forall d, d < 3 -> (mn d <= mx d)%R).

  Lemma bins_pos d : d < 3 -> (0 < bins h mn mx d)%Z.
  Proof.
    intros Hd. assert (Q := Hmm d Hd). assert (Hh' : (0 < h)%R) by lra.
    assert (L := bin_lt h mn mx Hh' mn d (proj2 Hh) ltac:(lra)). assert (N := bin_nonneg h mn mn d). lia.
  Qed.
  Lemma bins_le d (B : R) : d < 3 -> ((mx d - mn d + 1 + / 10 ^ 14) / h <= B)%R -> (IZR (bins h mn mx d) <= B)%R.
  Proof.
    intros Hd H. unfold bins. assert (Q := Hmm d Hd). assert (P : (0 < / 10 ^ 14)%R) by (apply Rinv_0_lt_compat, pow_lt; lra).
    assert (P0 : (1 <= (mx d - mn d + 1 + / 10 ^ 14) / h)%R) by (apply (Rmult_le_reg_r h); [lra|]; replace ((mx d - mn d + 1 + / 10 ^ 14) / h * h)%R with (mx d - mn d + 1 + / 10 ^ 14)%R by (field; lra); lra).
    rewrite Rmax_right. { assert (T := trunc_bounds _ (Rle_trans _ _ _ Rle_0_1 P0)). lra. }
    apply Rle_trans with 1%R; [|exact P0]. apply Rle_trans with (/ 1)%R; [|lra]. apply Rinv_le_contravar; [lra|]. apply pow_R1_Rle. lra.
  Qed.
  Lemma bins_ge d (k : Z) : d < 3 -> (IZR k * h <= mx d - mn d + 1 + / 10 ^ 14)%R -> (k <= bins h mn mx d)%Z.
  Proof.
    intros Hd H. unfold bins. set (x := ((mx d - mn d + 1 + / 10 ^ 14) / h)%R).
    assert (Kx : (IZR k <= x)%R) by (unfold x; apply (Rmult_le_reg_r h); [lra|]; replace ((mx d - mn d + 1 + / 10 ^ 14) / h * h)%R with (mx d - mn d + 1 + / 10 ^ 14)%R by (field; lra); exact H).
    assert (M1 := Rmax_r (/ 10 ^ 16) x). assert (P16 : (0 < / 10 ^ 16)%R) by (apply Rinv_0_lt_compat, pow_lt; lra). assert (M2 := Rmax_l (/ 10 ^ 16) x).
    assert (T := trunc_bounds (Rmax (/ 10 ^ 16) x) ltac:(lra)). assert (k < trunc (Rmax (/ 10 ^ 16) x) + 1)%Z by (apply lt_IZR; rewrite plus_IZR; lra). lia.
  Qed.
  Lemma bin_le c d (l : R) : (mn d <= c d)%R -> ((c d - mn d + / 10 ^ 14) / h <= l)%R -> (IZR (bin h mn c d) <= l)%R.
  Proof.
    intros Hc H. assert (Hh' : (0 < h)%R) by lra. rewrite (bin_spec h mn Hh' c d Hc). assert (T := trunc_bounds ((c d - mn d + / 10 ^ 14) / h)%R). 
    assert (P : (0 < / 10 ^ 14)%R) by (apply Rinv_0_lt_compat, pow_lt; lra). assert (0 <= (c d - mn d + / 10 ^ 14) / h)%R by (apply Rmult_le_pos; [lra|apply Rlt_le, Rinv_0_lt_compat; lra]). lra.
  Qed.
  Lemma bin_ge c d (k : Z) : (IZR k * h <= c d - mn d + / 10 ^ 14)%R -> (k <= bin h mn c d)%Z.
  Proof.
    intros H. unfold bin. set (x := ((c d - mn d + / 10 ^ 14) / h)%R).
    assert (Kx : (IZR k <= x)%R) by (unfold x; apply (Rmult_le_reg_r h); [lra|]; replace ((c d - mn d + / 10 ^ 14) / h * h)%R with (c d - mn d + / 10 ^ 14)%R by (field; lra); exact H).
    assert (M1 := Rmax_r (/ 10 ^ 16) x). assert (P16 : (0 < / 10 ^ 16)%R) by (apply Rinv_0_lt_compat, pow_lt; lra). assert (M2 := Rmax_l (/ 10 ^ 16) x).
    assert (T := trunc_bounds (Rmax (/ 10 ^ 16) x) ltac:(lra)). assert (k < trunc (Rmax (/ 10 ^ 16) x) + 1)%Z by (apply lt_IZR; rewrite plus_IZR; lra). lia.
  Qed.

  Lemma nkey_le c (l0 l1 l2 B0 B1 : R) : (forall d, d < 3 -> (mn d <= c d)%R) ->
    ((mx 0%nat - mn 0%nat + 1 + / 10 ^ 14) / h <= B0)%R -> ((mx 1%nat - mn 1%nat + 1 + / 10 ^ 14) / h <= B1)%R ->
    ((c 0%nat - mn 0%nat + / 10 ^ 14) / h <= l0)%R -> ((c 1%nat - mn 1%nat + / 10 ^ 14) / h <= l1)%R -> ((c 2%nat - mn 2%nat + / 10 ^ 14) / h <= l2)%R ->
    (IZR (nkey h mn mx c) <= l0 + l1 * B0 + l2 * B0 * B1)%R.
  Proof.
    intros Hc HB0 HB1 H0 H1 H2. unfold nkey. rewrite !plus_IZR, !mult_IZR.
    apply (bins_le 0) in HB0; [|lia]. apply (bins_le 1) in HB1; [|lia].
    apply bin_le in H0; [|apply Hc; lia]. apply bin_le in H1; [|apply Hc; lia]. apply bin_le in H2; [|apply Hc; lia].
    assert (N1 := IZR_le _ _ (bin_nonneg h mn c 1)). assert (N2 := IZR_le _ _ (bin_nonneg h mn c 2)).
    assert (P0 := IZR_lt _ _ (bins_pos 0 ltac:(lia))). assert (P1 := IZR_lt _ _ (bins_pos 1 ltac:(lia))).
    set (b0 := IZR (bin h mn c 0)) in *. set (b1 := IZR (bin h mn c 1)) in *. set (b2 := IZR (bin h mn c 2)) in *. set (C0 := IZR (bins h mn mx 0)) in *. set (C1 := IZR (bins h mn mx 1)) in *.
    assert (b1 * C0 <= l1 * B0)%R by (apply Rmult_le_compat; lra).
    assert (b2 * C0 <= l2 * B0)%R by (apply Rmult_le_compat; lra).
    assert (b2 * C0 * C1 <= l2 * B0 * B1)%R by (apply Rmult_le_compat; try lra; apply Rmult_le_pos; lra). lra.
  Qed.
  Lemma nkey_ge c (k0 k1 k2 : Z) : (0 <= k0)%Z -> (0 <= k1)%Z -> (0 <= k2)%Z -> 
    (IZR k0 * h <= mx 0%nat - mn 0%nat + 1 + / 10 ^ 14)%R -> (IZR k1 * h <= mx 1%nat - mn 1%nat + 1 + / 10 ^ 14)%R -> (IZR k2 * h <= c 2%nat - mn 2%nat + / 10 ^ 14)%R ->
    (k0 * k1 * k2 <= nkey h mn mx c)%Z.
  Proof.
    intros P0 P1 P2 H0 H1 H2. apply bins_ge in H0; [|lia]. apply bins_ge in H1; [|lia]. apply bin_ge in H2.
    assert (Hb : forall d, d < 3 -> (0 < bins h mn mx d)%Z) by exact bins_pos. assert (Q := nkey_parts h mn mx Hb c). unfold nkey.
    assert (k2 * k0 <= bin h mn c 2 * bins h mn mx 0)%Z by (apply Z.mul_le_mono_nonneg; lia).
    assert (k2 * k0 * k1 <= bin h mn c 2 * bins h mn mx 0 * bins h mn mx 1)%Z by (apply Z.mul_le_mono_nonneg; lia). lia.
  Qed.
End Bounds.

Lemma corner_small p d : p <= 9 -> (0 < node_bin p d <= 1)%R -> (0 < d <= 10 ^ 64)%R.
Proof.
  intros Hp Hh. assert (M1 := max1_pos p). set (h := node_bin p d) in *.
  assert (Ed : (d = h * (7 * INR (Nat.max 1 p)))%R) by (unfold h, node_bin; field; lra).
  assert (INR (Nat.max 1 p) <= 9)%R by (replace 9%R with (INR 9) by (cbn; lra); apply le_INR; lia). split; [rewrite Ed; apply Rmult_lt_0_compat; lra|].
  apply Rle_trans with 63%R; [rewrite Ed; nra|]. apply Rle_trans with (10 ^ 2)%R; [lra|]. apply Rle_pow; [lra|lia].
Qed.

Section Mesh.
  Variables (p : nat) (m : cmesh) (N : nat -> nat -> nat) (X : nat -> nat -> R) (d : R) (ne : nat).
  Let ng := pts1 p ^ 3.
  Let h := node_bin p d.
  Hypotheses (Hp : p <= 9) (HM : cdescribes m N X) (Ec : cm_cells m = S ne) (HL : corner_spacing N X ne d) (Hh : (0 < h <= 1)%R).

  Lemma keys32_unfold pts mx mn : mesh_box (10 ^ 16) m = Ok (mx, mn) -> refine_keys32 p m pts = keys32 (S ne * ng) h mx mn pts.
  Proof.
    intros E. unfold refine_keys32. rewrite E. cbn [bind]. assert (Hd := corner_small p d Hp Hh).
    rewrite (last_dist_spec _ m N X ne d HM Ec HL).
    2:{ intros v Hv. destruct HL as (_ & (a & b & Ha & Hb' & Ne & Q)). exists a, b. repeat (split; [assumption|]). rewrite node_dist_eq, !Hv by (assumption || lia). rewrite <- Q. apply Hd. }
    cbn [bind]. cbv zeta. rewrite sub_max, pts1_model, Ec. fold (node_bin p d). fold ng h. rewrite (Nat.mul_comm ng). reflexivity.
  Qed.
  Lemma box_of : exists mx mn, mesh_box (10 ^ 16) m = Ok (mx, mn) /\
    (forall n d, n < cm_nodes m -> d < 3 -> (mn d <= X n d <= mx d)%R) /\ (forall d, d < 3 -> (mn d <= mx d)%R) /\
    (forall d lo, d < 3 -> (lo <= 10 ^ 16)%R -> (forall n, n < cm_nodes m -> (lo <= X n d)%R) -> (lo <= mn d)%R) /\
    (forall d hi, d < 3 -> (- 10 ^ 16 <= hi)%R -> (forall n, n < cm_nodes m -> (X n d <= hi)%R) -> (mx d <= hi)%R).
  Proof.
    destruct (mesh_box_ok (10 ^ 16) m N X HM) as (mx & mn & E & Hb & Hn & Hx). exists mx, mn. split; [exact E|]. split; [exact Hb|].
    split. { intros i Hi. destruct HM as (HN & _). destruct (HN 0 0 ltac:(lia) ltac:(lia)) as (_ & Q). assert (Q' := Hb _ i Q Hi). lra. }
    split; intros i v Hi Hv Hall.
    - destruct (Hn i Hi) as [->|(n & Hnn & ->)]; [exact Hv|apply Hall; exact Hnn].
    - destruct (Hx i Hi) as [->|(n & Hnn & ->)]; [exact Hv|apply Hall; exact Hnn].
  Qed.
  Lemma points_box mx mn g : (forall n d, n < cm_nodes m -> d < 3 -> (mn d <= X n d <= mx d)%R) -> g < S ne * ng -> forall i, i < 3 -> (mn i <= tri_pos p N X g i <= mx i)%R.
  Proof.
    intros Hb Hg i Hi. destruct (tri_in_range p m N X g Hp HM ltac:(rewrite Ec; exact Hg) i Hi) as (a & b & Ha & Hb' & Q). assert (B1 := Hb a i Ha Hi). assert (B2 := Hb b i Hb' Hi). lra.
  Qed.

  Lemma cells32_fit mx mn : mesh_box (10 ^ 16) m = Ok (mx, mn) -> (forall d, d < 3 -> (mn d <= mx d)%R) ->
    (Z.of_nat (S ne * ng) <= 2147483647)%Z -> (forall d, d < 3 -> (bins h mn mx d <= 2147483647)%Z) ->
    (forall g, g < S ne * ng -> (nkey h mn mx (tri_pos p N X g) + 10 <= 2147483647)%Z) ->
    refine_cells32 p m = refine_cells p m.
  Proof.
    intros E Hmm HS HB HK. unfold refine_cells32, refine_cells. cbv zeta. rewrite pts1_model, sub1_model, Ec. fold ng.
    destruct (pts1_sub p) as (S1 & S2).
    rewrite fits_ok. 2:{ assert (Spec_Full.sub1 p * Spec_Full.sub1 p * Spec_Full.sub1 p <= ng) by (unfold ng; rewrite S1; cbn [Nat.pow]; nia). nia. }
    cbn [bind]. rewrite fits_ok by exact HS. cbn [bind].
    destruct (refine_points_ok p m N X Hp HM) as (pts & -> & Gp). cbn [bind]. rewrite Ec in Gp. fold ng in Gp.
    assert (Hh' : (0 < h)%R) by lra.
    destruct (keys32_fit h mn mx Hh' (bins_pos h mn mx Hh Hmm) (S ne * ng) pts (tri_pos p N X) Gp HB HK) as (ks & Q). rewrite <- (keys32_unfold pts mx mn E) in Q.
    destruct (so_refine_keys p m pts) as [Q'|Q']; [|rewrite Q' in Q; discriminate]. rewrite Q'. reflexivity.
  Qed.
  Lemma cells32_over mx mn g : mesh_box (10 ^ 16) m = Ok (mx, mn) -> (forall d, d < 3 -> (mn d <= mx d)%R) ->
    g < S ne * ng -> (2147483647 < nkey h mn mx (tri_pos p N X g) + 10)%Z -> refine_cells32 p m = Err Overflow.
  Proof.
    intros E Hmm Hg HK. destruct (so_refine_cells p m) as [Q|Q]; [|exact Q]. exfalso.
    assert (Hd := corner_small p d Hp Hh). destruct (refine_cells_ok p m N X d ne Hp HM Ec HL Hd) as (r & _ & _ & _ & _ & Er & _). rewrite Er in Q.
    unfold refine_cells32 in Q. cbv zeta in Q.
    destruct (fits _); cbn [bind] in Q; [|discriminate]. destruct (fits _); cbn [bind] in Q; [|discriminate].
    destruct (refine_points_ok p m N X Hp HM) as (pts & Ep & Gp). rewrite Ep in Q. cbn [bind] in Q. rewrite Ec in Gp. fold ng in Gp.
    destruct (refine_keys32 p m pts) as [ks|] eqn:Ek; cbn [bind] in Q; [|discriminate]. rewrite (keys32_unfold pts mx mn E) in Ek.
    assert (Hh' : (0 < h)%R) by lra.
    destruct (keys32_val h mn mx Hh' (bins_pos h mn mx Hh Hmm) (S ne * ng) pts (tri_pos p N X) Gp ks Ek) as (_ & V). specialize (V g Hg). lia.
  Qed.

  Theorem cells32_small lo L : spans (cm_nodes m) X lo L -> (forall i, i < 3 -> (lo i <= 10 ^ 16 /\ - 10 ^ 16 <= lo i + L i)%R) ->
    let l := fun i => ((L i + / 10 ^ 14) / h)%R in let B := fun i => ((L i + 1 + / 10 ^ 14) / h)%R in
    (INR (S ne * ng) <= IZR INT_MAX)%R -> (forall i, i < 3 -> (B i <= IZR INT_MAX)%R) ->
    (l 0%nat + l 1%nat * B 0%nat + l 2%nat * B 0%nat * B 1%nat + 10 <= IZR INT_MAX)%R ->
    refine_cells32 p m = refine_cells p m.
  Proof.
    intros HS HR l B H1 H2 H3. destruct box_of as (mx & mn & E & Hb & Hmm & Hlo & Hhi). change INT_MAX with 2147483647%Z in *.
    assert (P14 : (0 < / 10 ^ 14)%R) by (apply Rinv_0_lt_compat, pow_lt; lra).
    assert (Bn : forall i, i < 3 -> (lo i <= mn i)%R) by (intros i Hi; apply Hlo; [exact Hi|apply HR; exact Hi|intros n Hn; apply (HS n i Hn Hi)]).
    assert (Bx : forall i, i < 3 -> (mx i <= lo i + L i)%R) by (intros i Hi; apply Hhi; [exact Hi|apply HR; exact Hi|intros n Hn; apply (HS n i Hn Hi)]).
    assert (Ih : (0 < / h)%R) by (apply Rinv_0_lt_compat; lra).
    assert (BB : forall i, i < 3 -> ((mx i - mn i + 1 + / 10 ^ 14) / h <= B i)%R).
    { intros i Hi. unfold B, Rdiv. apply Rmult_le_compat_r; [lra|]. specialize (Bn i Hi). specialize (Bx i Hi). lra. }
    assert (BL : forall g i, g < S ne * ng -> i < 3 -> ((tri_pos p N X g i - mn i + / 10 ^ 14) / h <= l i)%R).
    { intros g i Hg Hi. unfold l, Rdiv. apply Rmult_le_compat_r; [lra|]. assert (Q := points_box mx mn g Hb Hg i Hi). specialize (Bn i Hi). specialize (Bx i Hi). lra. }
    apply (cells32_fit mx mn E Hmm).
    - apply le_IZR. rewrite <- INR_IZR_INZ. exact H1.
    - intros i Hi. apply le_IZR. eapply Rle_trans; [apply bins_le; [exact Hh|exact Hmm|exact Hi|apply BB; exact Hi]|]. apply H2. exact Hi.
    - intros g Hg. apply le_IZR. rewrite plus_IZR. eapply Rle_trans; [|exact H3]. apply Rplus_le_compat_r.
      apply nkey_le; try exact Hh; try exact Hmm; try (apply BB; lia); try (apply BL; [exact Hg|lia]). intros i Hi. apply (points_box mx mn g Hb Hg i Hi).
  Qed.

  (** an element's corner is one of its points *)
  Lemma corner_point e l i : e < S ne -> l < 8 -> i < 3 -> exists g, g < S ne * ng /\ tri_pos p N X g i = X (N e l) i.
  Proof.
    intros He Hl Hi. destruct (pts1_sub p) as (S1 & S2). set (n1 := pts1 p) in *. set (ns := Spec_Full.sub1 p) in *.
    assert (l mod 2 < 2) by (apply Nat.mod_upper_bound; lia). assert (l / 2 mod 2 < 2) by (apply Nat.mod_upper_bound; lia). assert (l / 4 < 2) by (apply Nat.div_lt_upper_bound; lia).
    assert (Bd : forall b, b < 2 -> b * ns < n1) by (intros b Hb; destruct b as [|[|b]]; lia).
    exists (e * ng + (l mod 2 * ns + l / 2 mod 2 * ns * n1 + l / 4 * ns * n1 * n1)). split.
    - assert (l mod 2 * ns + l / 2 mod 2 * ns * n1 + l / 4 * ns * n1 * n1 < n1 ^ 3) by (apply grid3_lt; apply Bd; assumption). unfold ng. fold n1. nia.
    - unfold ng. fold n1. rewrite tri_pos_at by (apply Bd; assumption). fold n1.
      destruct (gap_facts_ok p Hp) as (F0 & F1 & _). fold n1 ns in F0, F1.
      assert (V0 := vertex1_0 1). assert (V1 := vertex1_p 1 ltac:(lia)).
      assert (FV : forall b, b < 2 -> lob n1 (b * ns) = vertex1 1 b) by (intros b Hb; destruct b as [|[|b]]; [cbn [Nat.mul]; congruence|rewrite Nat.mul_1_l; congruence|lia]).
      rewrite !FV by assumption. unfold geo. change (1 + 1) with 2. rewrite field3_node by (try assumption; apply (vertex1_distinct 1); lia).
      f_equal. f_equal. do 8 (destruct l as [|l]; [reflexivity|]). lia.
  Qed.

  Theorem cells32_large e l a0 b0 a1 b1 a2 (k0 k1 k2 : Z) : e < S ne -> l < 8 ->
    a0 < cm_nodes m -> b0 < cm_nodes m -> a1 < cm_nodes m -> b1 < cm_nodes m -> a2 < cm_nodes m -> (0 <= k0)%Z -> (0 <= k1)%Z -> (0 <= k2)%Z ->
    (IZR k0 * h <= X b0 0%nat - X a0 0%nat + 1)%R -> (IZR k1 * h <= X b1 1%nat - X a1 1%nat + 1)%R -> (IZR k2 * h <= X (N e l) 2%nat - X a2 2%nat)%R ->
    (INT_MAX < k0 * k1 * k2 + 10)%Z -> refine_cells32 p m = Err Overflow.
  Proof.
    intros He Hl Ha0 Hb0 Ha1 Hb1 Ha2 P0 P1 P2 H0 H1 H2 HK. destruct box_of as (mx & mn & E & Hb & Hmm & _). change INT_MAX with 2147483647%Z in *.
    assert (P14 : (0 < / 10 ^ 14)%R) by (apply Rinv_0_lt_compat, pow_lt; lra).
    destruct (corner_point e l 2 He Hl ltac:(lia)) as (g & Hg & Eg). apply (cells32_over mx mn g E Hmm Hg).
    assert (Q := nkey_ge h mn mx Hh Hmm (tri_pos p N X g) k0 k1 k2 P0 P1 P2). rewrite Eg in Q.
    assert (U0 := Hb a0 0 Ha0 ltac:(lia)). assert (U1 := Hb b0 0 Hb0 ltac:(lia)). assert (U2 := Hb a1 1 Ha1 ltac:(lia)). assert (U3 := Hb b1 1 Hb1 ltac:(lia)). assert (U4 := Hb a2 2 Ha2 ltac:(lia)).
    specialize (Q ltac:(lra) ltac:(lra) ltac:(lra)). lia.
  Qed.
End Mesh.
