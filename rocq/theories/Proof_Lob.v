(** Distances in the Lobatto tables of 2p+1 points, p = 1..9. *)
From Coq Require Import Reals List Arith ZArith Lra Lia Bool.
Import ListNotations.
Require Import Verif.Base Verif.RBase Verif.Model_Quad Verif.Spec_Quad Verif.Spec_Lagrange Verif.Spec_High Verif.Proof_Quad Verif.Proof_Quad2 Verif.Proof_Quad3.
Open Scope R_scope.


Lemma lob_len n : (1 <= n <= 20)%nat -> length (lobatto_nodes_tab (Z.of_nat n)) = n.
Proof. intros H. apply (lobatto_rule n H). Qed.
Lemma lob_range n i : (1 <= n <= 20)%nat -> (i < n)%nat -> -1 <= lob n i <= 1.
Proof. intros H Hi. destruct (lobatto_rule n H) as (_ & _ & _ & Q). exact (q_inside _ _ _ _ _ Q i Hi). Qed.
Lemma lob_incr n : (1 <= n <= 20)%nat -> increasing n (lob n).
Proof. intros H. destruct (lobatto_rule n H) as (_ & _ & I & _). exact I. Qed.

(** integer test for decimal tables: gaps, end points and distance to the vertices -1 + 2v/p *)
Fixpoint gaps (g : Z -> Z -> bool) (l : list Z) : bool :=
  match l with x :: ((y :: _) as t) => g x y && gaps g t | _ => true end.
Definition near_ok (p : nat) (s d : Z) : bool :=
  forallb (fun v => let u := ((2 * Z.of_nat v - Z.of_nat p) * s)%Z in
    Z.eqb (d * Z.of_nat p) u || Z.leb (2 * Z.of_nat p * s) (Z.abs (d * Z.of_nat p - u) * 2 ^ 52)) (seq 0 (p + 1)).
Definition table_ok (p : nat) (xs : list (Z * nat)) : bool :=
  let s := (10 ^ 33)%Z in let X := map (zscale 33) xs in let P := Z.of_nat p in
  small 33 xs && gaps (fun x y => Z.leb (2 * s) (7 * P * P * (y - x))) X && forallb (near_ok p s) X
  && Z.eqb (nth 0 X 0%Z) (- s) && Z.eqb (nth (2 * p) X 0%Z) s.

Definition lob_facts (p : nat) (x : nat -> R) : Prop :=
  (forall i, (S i < 2 * p + 1)%nat -> 2 / (7 * INR p * INR p) <= x (S i) - x i) /\
  (forall i v, (i < 2 * p + 1)%nat -> (v < p + 1)%nat ->
     x i = -1 + 2 * INR v / INR p \/ tol <= Rabs (-1 + 2 * INR v / INR p - x i)) /\
  x 0%nat = -1 /\ x (2 * p)%nat = 1.

Lemma gaps_ok g l : gaps g l = true -> forall i, (S i < length l)%nat -> g (nth i l 0%Z) (nth (S i) l 0%Z) = true.
Proof.
  induction l as [|x l IH]; intros H i Hi; [cbn in Hi; lia|]. destruct l as [|y l]; [cbn in Hi; lia|].
  cbn [gaps] in H. apply andb_true_iff in H. destruct H as [H1 H2]. destruct i as [|i]; [exact H1|].
  apply (IH H2 i). cbn [length] in *. lia.
Qed.

Lemma table_facts p xs : (1 <= p)%nat -> length xs = (2 * p + 1)%nat -> table_ok p xs = true -> lob_facts p (fun i => nth i (decs xs) 0).
Proof.
  intros Hp L H. unfold table_ok in H. cbv zeta in H. repeat rewrite andb_true_iff in H. destruct H as [[[[S G] N] B0] B1].
  set (X := map (zscale 33) xs) in *.
  assert (E : forall i, (i < 2 * p + 1)%nat -> nth i (decs xs) 0 = IZR (nth i X 0%Z) / 10 ^ 33).
  { intros i Hi. rewrite (nth_decs 33 xs i S ltac:(lia)). f_equal. rewrite (pow_IZR 10 33). reflexivity. }
  assert (LX : length X = (2 * p + 1)%nat) by (unfold X; rewrite map_length; exact L).
  assert (Es : IZR (10 ^ 33) = 10 ^ 33) by (rewrite (pow_IZR 10 33); reflexivity).
  assert (Ps : 0 < 10 ^ 33) by (apply pow_lt; lra).
  assert (Pp : 0 < INR p) by (apply lt_0_INR; lia).
  repeat split.
  - intros i Hi. rewrite !E by lia. assert (Q := gaps_ok _ _ G i ltac:(lia)). apply Z.leb_le in Q. apply IZR_le in Q.
    rewrite !mult_IZR, minus_IZR, <- INR_IZR_INZ, Es in Q.
    assert (P2 : 0 < 7 * INR p * INR p) by nra. apply (Rmult_le_reg_r (7 * INR p * INR p * 10 ^ 33)); [apply Rmult_lt_0_compat; [exact P2|exact Ps]|].
    replace (2 / (7 * INR p * INR p) * (7 * INR p * INR p * 10 ^ 33)) with (2 * 10 ^ 33) by (field; lra).
    match goal with |- _ <= ?r => replace r with (7 * INR p * INR p * (IZR (nth (Datatypes.S i) X 0%Z) - IZR (nth i X 0%Z))) by (field; lra) end. exact Q.
  - intros i v Hi Hv. rewrite !E by lia. assert (Q := forallb_nth _ _ N i ltac:(lia)). unfold near_ok in Q. rewrite forallb_forall in Q.
    specialize (Q v ltac:(apply in_seq; lia)). cbv zeta in Q. set (d := nth i X 0%Z) in *. apply orb_true_iff in Q. destruct Q as [Q|Q].
    + left. apply Z.eqb_eq in Q. apply (f_equal IZR) in Q. rewrite !mult_IZR, minus_IZR, mult_IZR, <- !INR_IZR_INZ, Es in Q.
      apply (Rmult_eq_reg_r (INR p * 10 ^ 33)); [|apply Rgt_not_eq; apply Rmult_lt_0_compat; assumption].
      replace (IZR d / 10 ^ 33 * (INR p * 10 ^ 33)) with (IZR d * INR p) by (field; lra). rewrite Q. field. lra.
    + right. apply Z.leb_le in Q. apply IZR_le in Q. rewrite !mult_IZR, abs_IZR, minus_IZR, !mult_IZR, minus_IZR, mult_IZR, <- !INR_IZR_INZ, Es in Q.
      assert (T : 0 < IZR (2 ^ 52)) by (apply IZR_lt; reflexivity).
      assert (Et : tol = 2 / IZR (2 ^ 52)) by (unfold tol; f_equal; rewrite (pow_IZR 2 52); reflexivity).
      rewrite Et. apply (Rmult_le_reg_r (IZR (2 ^ 52) * (INR p * 10 ^ 33))); [apply Rmult_lt_0_compat; [exact T|apply Rmult_lt_0_compat; assumption]|].
      replace (2 / IZR (2 ^ 52) * (IZR (2 ^ 52) * (INR p * 10 ^ 33))) with (2 * INR p * 10 ^ 33) by (field; lra).
      match goal with |- _ <= Rabs ?a * (?b * ?c) => replace (Rabs a * (b * c)) with (Rabs (a * c) * b) end.
      2:{ rewrite Rabs_mult, (Rabs_right (INR p * 10 ^ 33)) by (apply Rle_ge, Rlt_le, Rmult_lt_0_compat; assumption). ring. }
      eapply Rle_trans; [exact Q|]. apply Req_le. f_equal. rewrite <- Rabs_Ropp. f_equal. f_equal. field. lra.
  - rewrite E by lia. apply Z.eqb_eq in B0. rewrite B0, opp_IZR, Es. clear -Ps. set (t := 10 ^ 33) in *. clearbody t. field. lra.
  - rewrite E by lia. apply Z.eqb_eq in B1. rewrite B1, Es. clear -Ps. set (t := 10 ^ 33) in *. clearbody t. field. lra.
Qed.

Lemma lob_facts_5 : lob_facts 2 (lob 5).
Proof.
  unfold lob_facts, lob. cbn [Z.of_nat Pos.of_succ_nat Pos.succ lobatto_nodes_tab].
  assert (B := sqrt_bd 21 (45 / 10) (46 / 10) ltac:(lra) ltac:(lra) ltac:(lra)).
  assert (T : tol <= / 100) by (unfold tol; lra).
  assert (I2 : INR 2 = 2) by (cbn; lra).
  repeat split.
  - intros i Hi. rewrite I2. do 4 (destruct i as [|i]; [cbn [nth]; lra|]). lia.
  - intros i v Hi Hv. assert (V : INR v = 0 \/ INR v = 1 \/ INR v = 2) by (destruct v as [|[|[|v]]]; [left|right; left|right; right|lia]; cbn; lra).
    rewrite I2. destruct V as [-> | [-> | ->]];
    do 5 (destruct i as [|i]; [cbn [nth]; first [left; lra | right; first [rewrite Rabs_right by lra; lra | rewrite Rabs_left1 by lra; lra]]|]); lia.
Qed.

Lemma lob_facts_ok p : (1 <= p <= 9)%nat -> lob_facts p (lob (2 * p + 1)).
Proof.
  intros H. destruct p as [|[|[|[|[|[|[|[|[|[|p]]]]]]]]]]; try lia.
  all: match goal with |- lob_facts 2 _ => exact lob_facts_5 | _ => apply table_facts; [lia|reflexivity|vm_compute; reflexivity] end.
Qed.
