(** gauss_4d, failures, and accuracy of the tensor rules. *)
From Coq Require Import List Arith ZArith Reals Lia Lra Bool.
From Coquelicot Require Import Coquelicot.
Import ListNotations.
Require Import Verif.Base Verif.RBase Verif.RSum Verif.Spec_Poly Verif.Spec_Quad Verif.Model_Quad Verif.Proof_Quad Verif.Proof_Quad2 Verif.Proof_Quad3 Verif.Proof_Quad4 Verif.Proof_Shape2.
Local Open Scope nat_scope.

(** what gauss_4d leaves in column 3: the weight times the previous content v m *)
Definition rows4 (q : nat) (v : nat -> R) (f : nat -> R) (m d : nat) : R := if d =? 3 then (v m * f (grid q m 3))%R else f (grid q m d).

Lemma gauss_4d_run q v pts wts : 1 <= q <= 8 -> q ^ 4 * 4 <= length pts -> q ^ 4 * 4 + 1 <= length wts ->
  (forall m, m < q ^ 4 -> nth_error wts (m * 4 + 3) = Some (Some (v m))) ->
  exists pts' wts', gauss_4d pts wts (Z.of_nat q) 4 = Ok (pts', wts') /\
    wrote_rows 4 (q ^ 4) (rows 4 q (lx gauss_pts q)) pts pts' /\
    length wts' = length wts /\
    forall i, nth_error wts' i = if i <? q ^ 4 * 4 then Some (Some (rows4 q v (lw gauss_wts q) (i / 4) (i mod 4)))
                                 else if i =? q ^ 4 * 4 then Some (Some 1%R) else nth_error wts i.
Proof.
  intros Hq Lp Lw Hv. pose proof gauss_lens as HL. unfold gauss_4d, line_gauss_info. rewrite tess_nat.
  match goal with |- context [loop ?n ?f ?s0] => destruct (loop_inv (fun k '(p, w) => 
    wrote_rows 4 k (rows 4 q (lx gauss_pts q)) pts p /\ length w = length wts /\
    forall i, nth_error w i = if i <? k * 4 then Some (Some (rows4 q v (lw gauss_wts q) (i / 4) (i mod 4)))
                              else if (i =? k * 4) && (0 <? k) then Some (Some 1%R) else nth_error wts i) n f s0) as ([p w] & E & Hf) end.
  - split; [apply wrote_rows_0|]. split; [reflexivity|]. intros i. rewrite andb_false_r. reflexivity.
  - intros m [p w] Hm (Hp & Lw' & Hw). assert (Lp' := proj1 Hp).
    assert (m * 4 + 4 <= q ^ 4 * 4) by nia. rewrite index4 by (try lia; exact Hm). cbn [bind].
    assert (V3 : nth_error w (m * 4 + 3) = Some (Some (v m))).
    { rewrite Hw. destruct (Nat.ltb_spec (m * 4 + 3) (m * 4)), (Nat.eqb_spec (m * 4 + 3) (m * 4)); try lia. cbn [andb]. apply Hv. exact Hm. }
    eexists (_, _). split.
    + do 4 run2. do 3 (dir; cbn [bind]).
      rewrite (direction_ok _ _ _ _ _ _ _ _ _ _ _ (v m)); [|assumption|assumption|apply grid_lt; lia|lens_tac|look; eqbs; exact V3]. cbn [bind]. reflexivity.
    + split; [eapply wrote_rows_S; [lia|eassumption|]; unfold rows; row_tac|]. split; [lens_tac|].
      intros i. look. rewrite Hw.
      destruct (Nat.ltb_spec i (S m * 4)).
      * destruct (Nat.ltb_spec i (m * 4)).
        { eqbs. reflexivity. }
        assert (E : i / 4 = m) by (symmetry; apply Nat.div_unique with (i - m * 4); lia).
        assert (F : i mod 4 = i - m * 4) by (rewrite Nat.mod_eq by lia; rewrite E; lia). rewrite E, F.
        assert (C : i = m * 4 + 0 \/ i = m * 4 + 1 \/ i = m * 4 + 2 \/ i = m * 4 + 3) by lia.
        destruct C as [-> | [-> | [-> | ->]]]; eqbs; match goal with |- context [?a + ?d - ?a] => replace (a + d - a) with d by lia end; unfold rows4; cbn [Nat.eqb]; rewrite ?Rmult_1_l; reflexivity.
      * destruct (Nat.ltb_spec i (m * 4)); [lia|]. cbn [Nat.ltb Nat.leb]. rewrite andb_true_r. eqbs; cbn [andb]; reflexivity.
  - exists p, w. rewrite E. destruct Hf as (A & B & C). split; [reflexivity|]. split; [exact A|]. split; [exact B|].
    intros i. rewrite C. replace (0 <? q ^ 4) with true; [rewrite andb_true_r; reflexivity|]. symmetry. apply Nat.ltb_lt. assert (q ^ 4 <> 0) by (apply Nat.pow_nonzero; lia). lia.
Qed.

Lemma set_len {A} (l l' : list A) i v : set l i v = Ok l' -> length l' = length l.
Proof. unfold set. destruct (i <? length l); [|discriminate]. intros E. inversion E. apply upd_length. Qed.

Lemma bind_inv {A B} (m : res A) (f : A -> res B) b : bind m f = Ok b -> exists a, m = Ok a /\ f a = Ok b.
Proof. destruct m; cbn; [eauto|discriminate]. Qed.

Lemma direction_len line nd m d i q x w pts wts x' w' pts' wts' :
  direction line nd m d i q (x, w, pts, wts) = Ok (x', w', pts', wts') -> length pts' = length pts /\ length wts' = length wts.
Proof.
  unfold direction. intros E. apply bind_inv in E. destruct E as ([[x1 w1] z] & _ & E).
  apply bind_inv in E. destruct E as (xv & _ & E). apply bind_inv in E. destruct E as (p1 & Ep & E).
  apply bind_inv in E. destruct E as (wv & _ & E). apply bind_inv in E. destruct E as (o & _ & E).
  apply bind_inv in E. destruct E as (w2 & Ew & E). inversion E; subst. split; eapply set_len; eassumption.
Qed.

(** any completed loop preserves what its body preserves *)
Lemma loop_from_pres {S} (P : S -> Prop) n (body : nat -> S -> res S) : forall lo s s',
  (forall i s s', P s -> body i s = Ok s' -> P s') -> P s -> loop_from lo n body s = Ok s' -> P s'.
Proof.
  induction n; intros lo s s' H Ps E; cbn in E; [inversion E; subst; exact Ps|].
  apply bind_inv in E. destruct E as (s1 & E1 & E2). eapply IHn; [exact H| |exact E2]. eapply H; [exact Ps|exact E1].
Qed.

Lemma gauss_4d_exact_fails q dim pts wts r : 1 <= q -> length wts = q ^ 4 * 4 -> gauss_4d pts wts (Z.of_nat q) dim <> Ok r.
Proof.
  intros Hq Lw E. unfold gauss_4d in E. rewrite tess_nat in E.
  assert (N : q ^ 4 <> 0) by (apply Nat.pow_nonzero; lia). destruct (q ^ 4) as [|n] eqn:Q; [lia|].
  unfold loop in E. replace (S n) with (n + 1) in E by lia. rewrite loop_from_last in E.
  apply bind_inv in E. destruct E as ([p w] & E1 & E2).
  assert (Pw : length w = length wts).
  { eapply (loop_from_pres (fun s => length (snd s) = length wts)) in E1; [exact E1| |reflexivity].
    intros i [p0 w0] [p1 w1] P E. cbn [snd] in *.
    apply bind_inv in E. destruct E as ([[[a b] c] d] & _ & E).
    apply bind_inv in E. destruct E as (u1 & U1 & E). apply set_len in U1.
    apply bind_inv in E. destruct E as (u2 & U2 & E). apply set_len in U2.
    apply bind_inv in E. destruct E as (u3 & U3 & E). apply set_len in U3.
    apply bind_inv in E. destruct E as (u4 & U4 & E). apply set_len in U4.
    apply bind_inv in E. destruct E as ([[[x1 y1] p2] w2] & D1 & E). apply direction_len in D1.
    apply bind_inv in E. destruct E as ([[[x2 y2] p3] w3] & D2 & E). apply direction_len in D2.
    apply bind_inv in E. destruct E as ([[[x3 y3] p4] w4] & D3 & E). apply direction_len in D3.
    apply bind_inv in E. destruct E as ([[[x4 y4] p5] w5] & D4 & E). apply direction_len in D4.
    inversion E; subst. lia. }
  cbn [Nat.add] in E2.
  apply bind_inv in E2. destruct E2 as ([[[a b] c] d] & _ & E).
  apply bind_inv in E. destruct E as (u1 & U1 & E). apply set_len in U1.
  apply bind_inv in E. destruct E as (u2 & U2 & E). apply set_len in U2.
  apply bind_inv in E. destruct E as (u3 & U3 & E). apply set_len in U3.
  rewrite set_oob in E by lia. discriminate.
Qed.

(** q > 8: the first direction reads the uninitialised local x *)
Lemma direction_uninit pt wt nd m d i q pts wts : (8 < q)%Z -> direction (line_info pt wt) nd m d i q (None, None, pts, wts) = Err Uninit.
Proof. intros H. unfold direction. rewrite line_none by exact H. reflexivity. Qed.

Lemma to_nat_S z : (0 < z)%Z -> exists n, Z.to_nat z = S n.
Proof. intros H. exists (pred (Z.to_nat z)). lia. Qed.

Lemma big_uninit q pts wts tot : (8 < q)%Z -> 4 < length wts -> 0 < length tot ->
  gauss_2d pts wts tot q = Err Uninit /\ gauss_3d pts wts tot q = Err Uninit /\ gauss_4d pts wts q 4 = Err Uninit /\
  lobatto_2d pts wts q = Err Uninit /\ lobatto_3d pts wts q = Err Uninit /\ lobatto_4d pts wts q 4 = Err Uninit.
Proof.
  intros H Lw Lt.
  destruct (to_nat_S (q * q)) as [n2 E2]; [nia|]. destruct (to_nat_S (q * q * q)) as [n3 E3]; [nia|]. destruct (to_nat_S (q * q * q * q)) as [n4 E4]; [nia|].
  assert (I4 : exists i j k l, index_4d (Z.of_nat 0) q 4 = Ok (i, j, k, l)) by (do 4 eexists; reflexivity). destruct I4 as (i & j & k & l & I4).
  unfold gauss_2d, gauss_3d, gauss_4d, lobatto_2d, lobatto_3d, lobatto_4d, line_gauss_info, line_lobatto_info. rewrite E2, E3, E4. unfold loop. cbn [loop_from]. rewrite I4.
  repeat split; cbn [bind]; repeat run2; rewrite direction_uninit by exact H; reflexivity.
Qed.
