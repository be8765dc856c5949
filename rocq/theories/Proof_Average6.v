(** boundary sets on the outer planes of a grid of boxes (C62). *)
From Coq Require Import Reals List Arith ZArith Lra Lia Sorted Bool.
Import ListNotations.
Require Import Verif.Base Verif.NatSum Verif.RBase Verif.RSum Verif.Spec_Patch Verif.Spec_Quad Verif.Spec_High Verif.Spec_Full Verif.Model_Full Verif.Proof_High Verif.Proof_Full Verif.Proof_Full3 Verif.Proof_Full4 Verif.Spec_Average.
Local Open Scope nat_scope.

Lemma surface_plane d v x : d < 3 -> surface_distance d v x = Rabs (x d - v).
Proof. intros Hd. destruct d as [|[|[|d]]]; [reflexivity..|lia]. Qed.

Section Planes.
  Variables (p ne : nat) (m : cmesh) (N : nat -> nat -> nat) (X : nat -> nat -> R) (o s : nat -> R) (E : nat -> nat -> Z) (D : nat).
  Hypotheses (Hp : p <= 5) (Ec : cm_cells m = S ne) (HB : box_elements 1 (S ne) N X o s E)
    (HD : D < 3) (Hs : forall d, d < 3 -> (0 < s D <= s d)%R) (Hbig : (s D <= 7 * INR (Nat.max 1 p))%R) (Hwide : (/ 10 ^ 6 <= s D)%R).
  Let n1 := pts1 p.
  Let ns := Spec_Full.sub1 p.
  Let nc := S ne * (ns * ns * ns).
  Variables (CN : nat -> nat -> nat) (CX : nat -> nat -> R) (pt : nat -> nat -> nat).
  Hypothesis HC : forall e i j k l d, e < S ne -> i < ns -> j < ns -> k < ns -> l < 8 -> d < 3 ->
    CX (CN (cell_id p e i j k) l) d = place p o s E e d (tri i j k d + corner_coord l d).
  Hypothesis HP : forall c t c' t', c < nc -> t < 6 -> c' < nc -> t' < 6 -> (pt c t = pt c' t' <-> forall d, d < 3 -> face_centre CN CX c t d = face_centre CN CX c' t' d).
  Hypothesis HE : forall e e', e < S ne -> e' < S ne -> (forall d, d < 3 -> E e d = E e' d) -> e = e'.

  (** the plane: every corner of the initial mesh lies on side w (0: not below v, 1: not above), one on it *)
  Variables (d w : nat) (v : R).
  Hypotheses (Hd : d < 3) (Hw : w < 2) (Hin : forall e l, e < S ne -> l < 8 -> if Nat.eqb w 0 then (v <= X (N e l) d)%R else (X (N e l) d <= v)%R)
    (Hat : exists e l, e < S ne /\ l < 8 /\ X (N e l) d = v).

  Let pl := place p o s E.
  Let fp := fplace p o s E.
  Let g0 : R := (1 - lob n1 (ns - 1))%R.

  Lemma place_step e q : q < ns -> (pl e d q < pl e d (S q))%R.
  Proof.
    intros Hq. destruct (gap_facts_ok p ltac:(lia)) as (F0 & F1 & F2 & F3). fold n1 ns g0 in F0, F1, F2, F3. assert (Q := F3 q Hq). assert (S := Hs d Hd).
    unfold pl, place, shifted. fold n1. nra.
  Qed.
  Lemma place_ends e : e < S ne -> (forall q, q <= ns -> if Nat.eqb w 0 then (v <= pl e d q)%R else (pl e d q <= v)%R).
  Proof.
    intros He q Hq. destruct (gap_facts_ok p ltac:(lia)) as (F0 & F1 & F2 & F3). fold n1 ns g0 in F0, F1, F2, F3.
    assert (P := pts1_sub p). fold n1 ns in P. assert (R := lob_in p ne m D Hp Ec HD q ltac:(fold n1; lia)). fold n1 in R. assert (S := Hs d Hd).
    unfold pl, place, shifted. fold n1.
    assert (A := Hin e 0 He ltac:(lia)). assert (B := Hin e 7 He ltac:(lia)). rewrite !(box_corner p ne m N X o s E D Hp Ec HB HD) in A, B by (assumption || lia).
    replace (corner_coord 7 d) with 1 in B by (destruct d as [|[|[|?]]]; [reflexivity..|lia]). replace (corner_coord 0 d) with 0 in A by (destruct d as [|[|[|?]]]; [reflexivity..|lia]).
    cbn [INR] in A, B. destruct (w =? 0); nra.
  Qed.
  Lemma plane_place : exists e q, e < S ne /\ q <= 2 * ns /\ v = fp e d q.
  Proof.
    destruct Hat as (e & l & He & Hl & Q). destruct (gap_facts_ok p ltac:(lia)) as (F0 & F1 & F2 & F3). fold n1 ns g0 in F0, F1, F2, F3.
    rewrite (box_corner p ne m N X o s E D Hp Ec HB HD) in Q by assumption. assert (B := corner_bit l d). exists e, (2 * (corner_coord l d * ns)). split; [exact He|]. split; [nia|].
    unfold fp, fplace, shifted. fold n1. rewrite halves_even. destruct (corner_coord l d) as [|[|?]]; [rewrite Nat.mul_0_l, F0|rewrite Nat.mul_1_l, F1|lia]; rewrite <- Q; cbn [INR]; field.
  Qed.

  Lemma centre_apart e i j k t : e < S ne -> i < ns -> j < ns -> k < ns -> t < 6 ->
    (Rabs (face_centre CN CX (cell_id p e i j k) t d - v) <= / 10 ^ 8)%R -> face_centre CN CX (cell_id p e i j k) t d = v.
  Proof.
    intros He Hi Hj Hk Ht H. destruct plane_place as (e0 & q0 & He0 & Hq0 & Ev). rewrite (face_at p ne m o s E D Hp Ec HD CN CX HC) in H |- * by assumption.
    assert (Hq : tri i j k d < ns) by (apply tri_lt; assumption).
    destruct (face_apart p ne m o s E D Hp Ec HD Hs e e0 d (face_index (tri i j k d) t d) q0 Hd) as [(Q & _)|Q]; [apply (face_index_lt p ne m D Hp Ec HD); exact Hq|exact Hq0|rewrite Ev; exact Q|exfalso].
    fold n1 ns in Q. unfold fp in Ev. rewrite <- Ev in Q. assert (W := end_gap_wide p Hp). unfold end_gap in W. fold n1 ns g0 in W, Q.
    assert (M1 : (1 <= INR (Nat.max 1 p) <= 5)%R) by (split; [replace 1%R with (INR 1) by reflexivity; apply le_INR; lia|replace 5%R with (INR 5) by (cbn; lra); apply le_INR; lia]).
    assert (W2 : (2 / 35 <= g0)%R). { eapply Rle_trans; [|exact W]. unfold Rdiv. apply Rmult_le_compat_l; [lra|]. apply Rinv_le_contravar; lra. }
    assert (W3 : (/ 10 ^ 6 * (2 / 35) <= s D * g0)%R) by (apply Rmult_le_compat; try lra; apply Rlt_le, Rinv_0_lt_compat; lra).
    assert (/ 10 ^ 6 = 100 * / 10 ^ 8)%R by (field; lra). assert (0 < / 10 ^ 8)%R by (apply Rinv_0_lt_compat; lra). lra.
  Qed.

  (** centre and corner coordinates of a side *)
  Lemma centre_val e i j k t : e < S ne -> i < ns -> j < ns -> k < ns -> t < 6 ->
    face_centre CN CX (cell_id p e i j k) t d = if Nat.eqb d (t / 2) then pl e d (tri i j k d + t mod 2) else ((pl e d (tri i j k d) + pl e d (S (tri i j k d))) / 2)%R.
  Proof.
    intros He Hi Hj Hk Ht. rewrite (face_at p ne m o s E D Hp Ec HD CN CX HC) by assumption. unfold fplace, face_index, shifted. fold n1.
    destruct (Nat.eqb d (t / 2)).
    - replace (2 * tri i j k d + 2 * (t mod 2)) with (2 * (tri i j k d + t mod 2)) by lia. rewrite halves_even. reflexivity.
    - rewrite halves_odd. unfold pl, place, shifted. fold n1. field.
  Qed.

  Lemma plane_nodes n : (exists c l, c < nc /\ l < 8 /\ CN c l = n) -> (near_surface CN CX nc pt d v n <-> CX n d = v).
  Proof.
    intros Hn. split.
    - intros (c & t & l & (Hc & Ht & U) & _ & Q & (Hl & Ol) & <-). rewrite surface_plane in Q by exact Hd.
      destruct (cell_split p (S ne) c Hc) as (e & i & j & k & He & Hi & Hj & Hk & ->). fold ns in Hi, Hj, Hk. apply centre_apart in Q; try assumption.
      rewrite centre_val in Q by assumption. assert (Hq : tri i j k d < ns) by (apply tri_lt; assumption). rewrite HC by assumption. fold pl.
      destruct (Nat.eqb_spec d (t / 2)) as [Et|Nt].
      + rewrite <- Et in Ol. rewrite Ol. exact Q.
      + exfalso. assert (A := place_ends e He (tri i j k d) ltac:(lia)). assert (B := place_ends e He (S (tri i j k d)) ltac:(lia)). assert (C := place_step e _ Hq). destruct (w =? 0); lra.
    - destruct Hn as (c & l & Hc & Hl & <-). intros Q. destruct (cell_split p (S ne) c Hc) as (e & i & j & k & He & Hi & Hj & Hk & ->). fold ns in Hi, Hj, Hk.
      assert (Hq : tri i j k d < ns) by (apply tri_lt; assumption). rewrite HC in Q by assumption. fold pl in Q. assert (Bl := corner_bit l d).
      assert (Cb : corner_coord l d = w).
      { assert (A := place_ends e He (tri i j k d) ltac:(lia)). assert (B := place_ends e He (S (tri i j k d)) ltac:(lia)). assert (C := place_step e _ Hq).
        destruct (corner_coord l d) as [|[|?]]; [rewrite Nat.add_0_r in Q|rewrite Nat.add_1_r in Q|lia]; assert (w = 0 \/ w = 1) as [E0|E0] by lia; rewrite E0 in *; cbn [Nat.eqb] in *; try reflexivity; lra. }
      assert (Hdiv : (2 * d + w) / 2 = d) by (rewrite Nat.mul_comm, Nat.div_add_l, (Nat.div_small w) by lia; lia).
      assert (Hmod : (2 * d + w) mod 2 = w) by (rewrite Nat.add_comm, Nat.mul_comm, Nat.mod_add, Nat.mod_small by lia; reflexivity).
      exists (cell_id p e i j k), (2 * d + w), l. split; [|split; [lia|split; [|split; [|reflexivity]]]].
      + split; [exact Hc|]. split; [lia|]. intros c' t' Hc' Ht' U. assert (Ht0 : 2 * d + w < 6) by lia. assert (V := proj1 (HP _ _ _ _ Hc' Ht' Hc Ht0) U). clear U. rename V into U.
        destruct (cell_split p (S ne) c' Hc') as (e' & i' & j' & k' & He' & Hi' & Hj' & Hk' & ->). fold ns in Hi', Hj', Hk'.
        destruct (centre_geometry p ne m o s E D Hp Ec HD Hs Hbig CN CX HC e' i' j' k' t' e i j k (2 * d + w)) as (G1 & G2 & G3); try assumption. rewrite Hdiv in G1.
        destruct (Nat.eq_dec (t' mod 2) w) as [Ew|Ew].
        * assert (t' = 2 * d + w) by (rewrite (Nat.div_mod t' 2) by lia; lia). split; [|assumption]. assert (G := G3 ltac:(assumption)).
          assert (e' = e) as -> by (apply HE; try assumption; intros x Hx; apply (G x Hx)).
          assert (X0 := proj2 (G 0 ltac:(lia))). assert (X1 := proj2 (G 1 ltac:(lia))). assert (X2 := proj2 (G 2 ltac:(lia))). cbn [tri] in X0, X1, X2. congruence.
        * exfalso. assert (F := U d Hd). rewrite !centre_val in F by (assumption || lia). rewrite Hdiv, G1, !Nat.eqb_refl, Hmod in F.
          rewrite Cb in Q. rewrite Q in F. assert (Hq' : tri i' j' k' d < ns) by (apply tri_lt; assumption).
          assert (A := place_ends e' He' (tri i' j' k' d) ltac:(lia)). assert (B := place_ends e' He' (S (tri i' j' k' d)) ltac:(lia)). assert (C := place_step e' _ Hq').
          assert (Bt : t' mod 2 < 2) by (apply Nat.mod_upper_bound; lia).
          destruct (t' mod 2) as [|[|?]]; [rewrite Nat.add_0_r in F|rewrite Nat.add_1_r in F|lia]; assert (w = 0 \/ w = 1) as [E0|E0] by lia; rewrite E0 in *; cbn [Nat.eqb] in *; try (exfalso; lia); lra.
      + rewrite surface_plane by exact Hd. rewrite centre_val by (assumption || lia). rewrite Hdiv, Nat.eqb_refl, Hmod, <- Cb, Q, Rminus_eq_0, Rabs_R0. apply Rlt_le, Rinv_0_lt_compat. lra.
      + split; [exact Hl|]. rewrite Hdiv, Hmod. exact Cb.
  Qed.
End Planes.
