(** refine_mesh on grids of equal boxes: cells, faces and connectivity. *)
From Coq Require Import Reals List Arith ZArith Lra Lia Sorted Bool.
Import ListNotations.
Require Import Verif.Base Verif.NatSum Verif.RBase Verif.RSum Verif.Spec_Lagrange Verif.Spec_Quad Verif.Spec_High Verif.Proof_Lob Verif.Proof_High Verif.Proof_High3
  Verif.Spec_Patch Verif.Model_Geom Verif.Proof_Geom Verif.Model_Ref Verif.Model_Refine Verif.Model_Conn
  Verif.Model_Full Verif.Spec_Full Verif.Proof_Full Verif.Proof_Full2 Verif.Proof_Full3 Verif.Model_Patch.
Local Open Scope nat_scope.

Lemma corner_bit l d : corner_coord l d < 2.
Proof. apply Nat.mod_upper_bound. lia. Qed.

(** mean of the side corners of a function that is affine in each corner coordinate *)
Lemma side_mean_box (x0 x1 : R) d t : t < 6 -> d < 3 ->
  side_mean (fun l => if Nat.eqb (corner_coord l d) 0 then x0 else x1) t = if Nat.eqb d (t / 2) then (if Nat.eqb (t mod 2) 0 then x0 else x1) else ((x0 + x1) / 2)%R.
Proof.
  intros Ht Hd. unfold side_mean. do 6 (destruct t as [|t]; [do 3 (destruct d as [|d]; [cbn; field|]); exfalso; lia|]). exfalso; lia.
Qed.
Lemma side_mean_ext f f' t : (forall l, l < 8 -> f l = f' l) -> side_mean f t = side_mean f' t.
Proof. intros H. unfold side_mean. f_equal. apply rsum_ext. intros l Hl. rewrite H by exact Hl. reflexivity. Qed.
Lemma side_mean_range f t lo hi : t < 6 -> (forall l, l < 8 -> (lo <= f l <= hi)%R) -> (lo <= side_mean f t <= hi)%R.
Proof.
  intros Ht H. assert (H0 := H 0 ltac:(lia)). assert (H1 := H 1 ltac:(lia)). assert (H2 := H 2 ltac:(lia)). assert (H3 := H 3 ltac:(lia)).
  assert (H4 := H 4 ltac:(lia)). assert (H5 := H 5 ltac:(lia)). assert (H6 := H 6 ltac:(lia)). assert (H7 := H 7 ltac:(lia)).
  unfold side_mean. do 6 (destruct t as [|t]; [cbn; lra|]). exfalso; lia.
Qed.

Lemma cell_split p ne c : let ns := Spec_Full.sub1 p in c < ne * (ns * ns * ns) -> exists e i j k, e < ne /\ i < ns /\ j < ns /\ k < ns /\ c = cell_id p e i j k.
Proof.
  intros ns Hc. destruct (pts1_sub p) as (_ & A). fold ns in A.
  destruct (gauss_split ns ne c ltac:(lia)) as (e & i & j & k & He & Hi & Hj & Hk & ->); [cbn [Nat.pow]; lia|].
  exists e, i, j, k. repeat (split; [assumption|]). unfold cell_id. cbv zeta. fold ns. cbn [Nat.pow]. ring.
Qed.
Lemma cell_id_lt p ne e i j k : let ns := Spec_Full.sub1 p in e < ne -> i < ns -> j < ns -> k < ns -> cell_id p e i j k < ne * (ns * ns * ns).
Proof. intros ns He Hi Hj Hk. unfold cell_id. cbv zeta. fold ns. assert (G := grid3_lt ns i j k Hi Hj Hk). cbn [Nat.pow] in G. nia. Qed.

(** tangential index of the face centre among points and midpoints *)
Definition face_index (q t d : nat) : nat := 2 * q + (if Nat.eqb d (t / 2) then 2 * (t mod 2) else 1).

Section Faces.
  Variables (p ne : nat) (m : cmesh) (N : nat -> nat -> nat) (X : nat -> nat -> R) (o s : nat -> R) (E : nat -> nat -> Z) (D : nat).
  Hypotheses (Hp : p <= 5) (HM : cdescribes m N X) (Ec : cm_cells m = S ne) (HB : box_elements 1 (S ne) N X o s E)
    (HD : D < 3) (Hs : forall d, d < 3 -> (0 < s D <= s d)%R) (Hbig : (s D <= 7 * INR (Nat.max 1 p))%R).
  Let n1 := pts1 p.
  Let ns := Spec_Full.sub1 p.
  Let ng := n1 ^ 3.
  Variables (CN : nat -> nat -> nat) (CX : nat -> nat -> R).
  Hypothesis HC : forall e i j k l d, e < S ne -> i < ns -> j < ns -> k < ns -> l < 8 -> d < 3 ->
    CX (CN (cell_id p e i j k) l) d = place p o s E e d (tri i j k d + corner_coord l d).
  Let F := halves (lob n1).
  Let g0 : R := (1 - lob n1 (ns - 1))%R.
  Definition fplace (e d q : nat) : R := (o d + s d * shifted F (E e d) q)%R.

  Lemma face_at e i j k t d : e < S ne -> i < ns -> j < ns -> k < ns -> t < 6 -> d < 3 ->
    face_centre CN CX (cell_id p e i j k) t d = fplace e d (face_index (tri i j k d) t d).
  Proof.
    intros He Hi Hj Hk Ht Hd. unfold face_centre. set (q := tri i j k d).
    rewrite (side_mean_ext _ (fun l => if Nat.eqb (corner_coord l d) 0 then place p o s E e d q else place p o s E e d (S q))).
    2:{ intros l Hl. rewrite HC by assumption. fold q. assert (B := corner_bit l d). destruct (corner_coord l d) as [|[|?]]; [|cbn [Nat.eqb]|lia]; [rewrite Nat.add_0_r; reflexivity|rewrite Nat.add_1_r; reflexivity]. }
    rewrite side_mean_box by assumption. unfold fplace, face_index, place, shifted, F. fold n1.
    assert (Bt : t mod 2 < 2) by (apply Nat.mod_upper_bound; lia).
    destruct (Nat.eqb_spec d (t / 2)).
    - destruct (t mod 2) as [|[|?]]; [| |lia]; cbn [Nat.eqb].
      + replace (2 * q + 2 * 0) with (2 * q) by lia. rewrite halves_even. reflexivity.
      + replace (2 * q + 2 * 1) with (2 * S q) by lia. rewrite halves_even. reflexivity.
    - rewrite halves_odd. field.
  Qed.

  Lemma face_index_lt q t d : q < ns -> face_index q t d <= 2 * ns.
  Proof. intros H. unfold face_index. assert (Bt : t mod 2 < 2) by (apply Nat.mod_upper_bound; lia). destruct (Nat.eqb d (t / 2)); lia. Qed.

  Lemma face_apart e e' d q q' : d < 3 -> q <= 2 * ns -> q' <= 2 * ns ->
    (fplace e d q = fplace e' d q' /\ same_place (2 * ns) (E e d) q (E e' d) q') \/ (3 / 2 * (s D * (g0 / 2) / 3) <= Rabs (fplace e d q - fplace e' d q'))%R.
  Proof.
    intros Hd Hq Hq'. destruct (n1_ns p) as (A1 & A2). fold n1 ns in A1, A2. destruct (gap_facts_ok p ltac:(lia)) as (F0 & F1 & F2 & F3). fold n1 ns g0 in F0, F1, F2, F3. specialize (Hs d Hd).
    assert (K0 : F 0 = (-1)%R) by (unfold F; rewrite (halves_even (lob n1) 0 : halves (lob n1) 0 = _); exact F0).
    assert (K1 : F (2 * ns) = 1%R) by (unfold F; rewrite halves_even; exact F1).
    destruct (shift_apart (2 * ns) F (g0 / 2) K0 K1 ltac:(lra) ltac:(lia) (halves_gap ns (lob n1) g0 F3) (E e d) (E e' d) q q' Hq Hq') as [(Q & Q')|Q]; [left; split; [unfold fplace; rewrite Q; reflexivity|exact Q']|right].
    unfold fplace. match goal with |- (_ <= Rabs ?t)%R => replace t with (s d * (shifted F (E e d) q - shifted F (E e' d) q'))%R by ring end.
    rewrite Rabs_mult, (Rabs_right (s d)) by lra. replace (3 / 2 * (s D * (g0 / 2) / 3))%R with (s D * (g0 / 2 / 2))%R by field. apply Rmult_le_compat; lra.
  Qed.

  Lemma tri_lt i j k d n : i < n -> j < n -> k < n -> tri i j k d < n.
  Proof. intros. destruct d as [|[|?]]; assumption. Qed.

  (** the last refined cell *)
  Lemma last_spacing : corner_spacing CN CX (S ne * (ns * ns * ns) - 1) (s D * (g0 / 2))%R.
  Proof.
    destruct (n1_ns p) as (A1 & A2). fold n1 ns in A1, A2. destruct (gap_facts_ok p ltac:(lia)) as (F0 & F1 & F2 & F3). fold n1 ns g0 in F0, F1, F2, F3.
    assert (Ecell : S ne * (ns * ns * ns) - 1 = cell_id p ne (ns - 1) (ns - 1) (ns - 1)).
    { unfold cell_id. cbv zeta. fold ns. destruct ns as [|n]; [lia|]. replace (S n - 1) with n by lia. lia. }
    rewrite Ecell. apply (box_spacing CN CX _ (fun d => place p o s E ne d (ns - 1)) (fun d => s d * (g0 / 2))%R D HD).
    - intros d Hd. specialize (Hs d Hd). split; [apply Rmult_lt_0_compat; lra|]. apply Rmult_le_compat_r; lra.
    - intros l d Hl Hd. rewrite HC by (assumption || lia). replace (tri (ns - 1) (ns - 1) (ns - 1) d) with (ns - 1) by (destruct d as [|[|?]]; reflexivity).
      assert (B := corner_bit l d). destruct (corner_coord l d) as [|[|?]]; [| |lia].
      + rewrite Nat.add_0_r. cbn [INR]. ring.
      + replace (ns - 1 + 1) with ns by lia. unfold place, shifted. fold n1. rewrite F1. cbn [INR]. unfold g0. field.
  Qed.
  Lemma last_small : (0 < s D * (g0 / 2) <= 10 ^ 64)%R.
  Proof.
    destruct (gap_facts_ok p ltac:(lia)) as (F0 & F1 & F2 & F3). fold n1 ns g0 in F0, F1, F2, F3. destruct (n1_ns p) as (A1 & A2). fold n1 ns in A1, A2.
    assert (S64 : (0 < s D <= 10 ^ 64)%R) by (eapply s_small; eassumption). assert (Sm : (g0 <= 2)%R) by exact (shift_small ns (lob n1) g0 F0 F1 F2 A2 F3).
    split; [apply Rmult_lt_0_compat; lra|]. nra.
  Qed.

  Lemma face_same e i j k t e' i' j' k' t' mn mx :
    (forall c l d, c < S ne * (ns * ns * ns) -> l < 8 -> d < 3 -> (mn d <= CX (CN c l) d <= mx d)%R) ->
    e < S ne -> i < ns -> j < ns -> k < ns -> t < 6 -> e' < S ne -> i' < ns -> j' < ns -> k' < ns -> t' < 6 ->
    let c := cell_id p e i j k in let c' := cell_id p e' i' j' k' in
    patch_key (s D * (g0 / 2) / 3) mn mx (face_centre CN CX c t) = patch_key (s D * (g0 / 2) / 3) mn mx (face_centre CN CX c' t') ->
    forall d, d < 3 -> face_centre CN CX c t d = face_centre CN CX c' t' d.
  Proof.
    intros Hb He Hi Hj Hk Ht He' Hi' Hj' Hk' Ht' c c' EK d Hd.
    assert (Hc : c < S ne * (ns * ns * ns)) by (apply cell_id_lt; assumption). assert (Hc' : c' < S ne * (ns * ns * ns)) by (apply cell_id_lt; assumption).
    destruct (Req_dec (face_centre CN CX c t d) (face_centre CN CX c' t' d)) as [Q|Q]; [exact Q|exfalso].
    assert (L := last_small). revert EK. apply patch_key_sep.
    - lra.
    - intros a Ha. apply side_mean_range; [exact Ht|]. intros l Hl. apply Hb; assumption.
    - intros a Ha. apply side_mean_range; [exact Ht'|]. intros l Hl. apply Hb; assumption.
    - intros a Ha. destruct (gap_facts_ok p ltac:(lia)) as (F0 & F1 & F2 & F3). fold n1 ns g0 in F0, F1, F2, F3. destruct (n1_ns p) as (A1 & A2). fold n1 ns in A1, A2.
      assert (B0 := Hb (cell_id p ne (ns - 1) (ns - 1) (ns - 1)) 0 a ltac:(apply cell_id_lt; lia) ltac:(lia) Ha). assert (B7 := Hb (cell_id p ne (ns - 1) (ns - 1) (ns - 1)) 7 a ltac:(apply cell_id_lt; lia) ltac:(lia) Ha).
      rewrite HC in B0, B7 by (assumption || lia). replace (tri (ns - 1) (ns - 1) (ns - 1) a) with (ns - 1) in B0, B7 by (destruct a as [|[|?]]; reflexivity).
      assert (C0 : corner_coord 0 a = 0) by (destruct a as [|[|[|?]]]; [reflexivity|reflexivity|reflexivity|lia]). assert (C7 : corner_coord 7 a = 1) by (destruct a as [|[|[|?]]]; [reflexivity|reflexivity|reflexivity|lia]).
      rewrite C0 in B0. rewrite C7 in B7. rewrite Nat.add_0_r in B0. replace (ns - 1 + 1) with ns in B7 by lia. unfold place, shifted in B0, B7. fold n1 in B0, B7. rewrite F1 in B7. specialize (Hs a Ha).
      assert ((s D * (g0 / 2) <= s a * (g0 / 2))%R) by (apply Rmult_le_compat_r; lra). unfold g0 in *. lra.
    - intros a Ha. unfold sep. unfold c, c'. rewrite !face_at by assumption.
      destruct (face_apart e e' a (face_index (tri i j k a) t a) (face_index (tri i' j' k' a) t' a) Ha) as [(T & _)|T]; [apply face_index_lt, tri_lt; assumption|apply face_index_lt, tri_lt; assumption|left; exact T|right; exact T].
    - exists d. auto.
  Qed.

  (** equal centres: opposite or equal sides of the same direction, same extent *)
  Lemma centre_geometry e i j k t e' i' j' k' t' :
    e < S ne -> i < ns -> j < ns -> k < ns -> t < 6 -> e' < S ne -> i' < ns -> j' < ns -> k' < ns -> t' < 6 ->
    let c := cell_id p e i j k in let c' := cell_id p e' i' j' k' in
    (forall d, d < 3 -> face_centre CN CX c t d = face_centre CN CX c' t' d) ->
    t / 2 = t' / 2 /\ (forall d, d < 3 -> d <> t / 2 -> E e d = E e' d /\ tri i j k d = tri i' j' k' d) /\
    (t = t' -> forall d, d < 3 -> E e d = E e' d /\ tri i j k d = tri i' j' k' d).
  Proof.
    intros He Hi Hj Hk Ht He' Hi' Hj' Hk' Ht' c c' H. destruct (n1_ns p) as (A1 & A2). fold n1 ns in A1, A2.
    assert (SP : forall d, d < 3 -> same_place (2 * ns) (E e d) (face_index (tri i j k d) t d) (E e' d) (face_index (tri i' j' k' d) t' d)).
    { intros d Hd. specialize (H d Hd). unfold c, c' in H. rewrite !face_at in H by assumption.
      destruct (face_apart e e' d (face_index (tri i j k d) t d) (face_index (tri i' j' k' d) t' d) Hd) as [(_ & T)|T]; [apply face_index_lt, tri_lt; assumption|apply face_index_lt, tri_lt; assumption|exact T|].
      rewrite H, Rminus_eq_0, Rabs_R0 in T. assert (L := last_small). lra. }
    assert (T2 : t / 2 < 3) by (apply Nat.div_lt_upper_bound; lia). assert (T2' : t' / 2 < 3) by (apply Nat.div_lt_upper_bound; lia).
    assert (Bt : t mod 2 < 2) by (apply Nat.mod_upper_bound; lia). assert (Bt' : t' mod 2 < 2) by (apply Nat.mod_upper_bound; lia).
    assert (Et : t / 2 = t' / 2).
    { destruct (Nat.eq_dec (t / 2) (t' / 2)) as [Q|Q]; [exact Q|exfalso]. specialize (SP (t / 2) T2). unfold same_place, face_index in SP. rewrite Nat.eqb_refl in SP. destruct (Nat.eqb_spec (t / 2) (t' / 2)); [contradiction|]. lia. }
    split; [exact Et|].
    assert (Lt : forall d, tri i j k d < ns) by (intros; apply tri_lt; assumption). assert (Lt' : forall d, tri i' j' k' d < ns) by (intros; apply tri_lt; assumption).
    assert (Tg : forall d, d < 3 -> d <> t / 2 -> E e d = E e' d /\ tri i j k d = tri i' j' k' d).
    { intros d Hd Nd. specialize (SP d Hd). specialize (Lt d). specialize (Lt' d). unfold same_place, face_index in SP. rewrite <- Et in SP. destruct (Nat.eqb_spec d (t / 2)); [contradiction|]. lia. }
    split; [exact Tg|]. intros <- d Hd. destruct (Nat.eq_dec d (t / 2)) as [Q|Q]; [|apply Tg; assumption].
    specialize (SP d Hd). specialize (Lt d). specialize (Lt' d). unfold same_place, face_index in SP. rewrite <- Q, Nat.eqb_refl in SP. lia.
  Qed.

  Lemma corners_meet e i j k t e' i' j' k' t' :
    e < S ne -> i < ns -> j < ns -> k < ns -> t < 6 -> e' < S ne -> i' < ns -> j' < ns -> k' < ns -> t' < 6 ->
    let c := cell_id p e i j k in let c' := cell_id p e' i' j' k' in
    (forall d, d < 3 -> face_centre CN CX c t d = face_centre CN CX c' t' d) ->
    forall l l', on_side t l -> on_side t' l' -> (forall d, d < 3 -> d <> t / 2 -> corner_coord l d = corner_coord l' d) ->
    forall d, d < 3 -> CX (CN c l) d = CX (CN c' l') d.
  Proof.
    intros He Hi Hj Hk Ht He' Hi' Hj' Hk' Ht' c c' H l l' Ol Ol' Hl d Hd.
    destruct (centre_geometry e i j k t e' i' j' k' t' He Hi Hj Hk Ht He' Hi' Hj' Hk' Ht' H) as (Et & Tg & _).
    unfold c, c'. rewrite !HC by (assumption || apply Ol || apply Ol').
    destruct (Nat.eq_dec d (t / 2)) as [Q|Q].
    - specialize (H d Hd). unfold c, c' in H. rewrite !face_at in H by assumption. unfold face_index in H. rewrite <- Et, <- Q, Nat.eqb_refl in H.
      destruct Ol as (_ & Ol). destruct Ol' as (_ & Ol'). rewrite <- Et in Ol'. rewrite <- Q in Ol, Ol'. rewrite Ol, Ol'.
      rewrite <- !Nat.mul_add_distr_l in H. unfold fplace, shifted, F in H. rewrite !halves_even in H. exact H.
    - destruct (Tg d Hd Q) as (A & B). rewrite (Hl d Hd Q). unfold place. rewrite A, B. reflexivity.
  Qed.
End Faces.
