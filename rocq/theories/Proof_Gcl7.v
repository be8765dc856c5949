(** The volume check on the tables (C67). *)
From Coq Require Import List Arith ZArith Reals Lia Lra.
Import ListNotations.
Require Import Verif.Base Verif.RBase Verif.RSum Verif.Spec_Mat Verif.Spec_Lagrange Verif.Lagrange_Math Verif.Spec_Quad Verif.Spec_Ref Verif.Model_Ref
  Verif.Proof_Ref Verif.Proof_Ref5 Verif.Model_Jac Verif.Proof_Jac Verif.Spec_HexN Verif.Model_HexN Verif.Proof_HexN2 Verif.Proof_HexN3 Verif.Model_Gcl Verif.Spec_Gcl
  Verif.Proof_Gcl Verif.Proof_Gcl2 Verif.Proof_Gcl4 Verif.Proof_Gcl5 Verif.Proof_Gcl6.
Require Verif.Prop_Ref.
Open Scope R_scope.

Lemma volume_val wts ncell cie T e (wt : nat -> R) : (forall c, (c < ncell)%nat -> getu wts c = Ok (wt c)) ->
  elem_volume wts ncell cie T e = Ok (rsum ncell (fun c => t_det T (cie e c) * wt c)).
Proof.
  intros H. unfold elem_volume.
  destruct (loop_inv (fun m v => v = rsum m (fun c => t_det T (cie e c) * wt c)) ncell
    (fun c v => do w <- ref_cell_g_weights wts c; Ok (v + t_det T (cie e c) * w)) 0) as (v & E & ->); [reflexivity| |exact E].
  intros m v Hm ->. unfold ref_cell_g_weights. rewrite (H m Hm). cbn [bind rsum]. eexists. split; reflexivity.
Qed.

Section Vol.
Variables (p : nat) (lob leg legw : list R).
Let nc := (nodes_1d p - 1)%nat.
Let n := verts_1d p.
Let nb := (n * n * n)%nat.
Let Z := vert_coord p lob.
Let x i := nth i leg 0.
Let w i := nth i legw 0.
Hypothesis Llob : length lob = (nc + 1)%nat.
Hypothesis Lleg : length leg = nc.
Hypothesis Llegw : length legw = nc.
Hypothesis D : distinct n Z.

Theorem volume_main : exists pos wts h tg, build_cell_pos nc leg = Ok pos /\ build_cell_weights nc legw = Ok wts /\ setup_hexn p lob = Ok h /\
  gradient_table h (nc * nc * nc) nb (nodes_1d p * nodes_1d p * nodes_1d p) pos = Ok tg /\
  forall grad, (forall r v d, (r < nc * nc * nc)%nat -> (v < nb)%nat -> (d < 3)%nat -> ref_gradient nb tg r v d = Ok (grad r v d)) ->
  forall ne cie vmap N X T1 e, (e < ne)%nat ->
  (forall e c e' c', (e < ne)%nat -> (e' < ne)%nat -> (c < nc * nc * nc)%nat -> (c' < nc * nc * nc)%nat -> cie e c = cie e' c' -> e = e' /\ c = c') ->
  elem_volume wts (nc * nc * nc) cie (get_pt_jacobian ne (nc * nc * nc) nb cie vmap N X grad T1) e =
    Ok (Q3 nc x w (detf n Z (fun v => X (N e (vmap v))))).
Proof.
  destruct (Prop_Ref.C36_tensor_points nc leg legw Lleg Llegw) as (pos & wts & _ & Ep & _ & Ew & HP).
  set (Pt := fun r d => match getu pos (r * 3 + d) with Ok v => v | Err _ => 0 end).
  assert (PtV : forall i j k d, (i < nc)%nat -> (j < nc)%nat -> (k < nc)%nat -> (d < 3)%nat -> getu pos (rid nc i j k * 3 + d) = Ok (x (coord d i j k))).
  { intros i j k d Hi Hj Hk Hd. destruct (HP i j k Hi Hj Hk) as (A & _). unfold ref_node_positions in A. apply A. exact Hd. }
  assert (HPt : pos_holds (nc * nc * nc) pos Pt).
  { intros r d Hr Hd. destruct (pos3 nc r Hr) as (A & B & C & E). unfold Pt. rewrite E. rewrite PtV by assumption. reflexivity. }
  destruct (gradient_is p lob (nc * nc * nc) (nodes_1d p * nodes_1d p * nodes_1d p) pos Pt) as (h & tg & Eh & Eg & Fg).
  { rewrite Llob. unfold nc, nodes_1d. destruct (Nat.eqb_spec p 0); lia. } { exact D. } { exact HPt. }
  { assert (n <= nodes_1d p)%nat by (unfold n, nodes_1d, verts_1d; destruct (Nat.eqb_spec p 0); lia). apply Nat.mul_le_mono; [apply Nat.mul_le_mono|]; assumption. }
  exists pos, wts, h, tg. split; [exact Ep|]. split; [exact Ew|]. split; [exact Eh|]. split; [exact Eg|].
  intros grad Hg ne cie vmap N X T1 e He Inj. set (T := get_pt_jacobian _ _ _ _ _ _ _ _ _).
  destruct (pt_all ne (nc * nc * nc) nb cie vmap N X grad T1 Inj) as (PT & _). fold T in PT.
  set (Y := fun v => X (N e (vmap v))).
  set (wt := fun c : nat => w (c mod nc)%nat * w (c / nc mod nc)%nat * w (c / nc / nc)%nat).
  rewrite (volume_val wts _ cie T e wt).
  2:{ intros c Hc. destruct (pos3 nc c Hc) as (A & B & C & E). rewrite E at 1. apply (HP _ _ _ C B A). }
  f_equal. rewrite rsum_rid. unfold Q3. apply rsum_ext. intros k Hk. apply rsum_ext. intros j Hj. apply rsum_ext. intros i Hi.
  set (c := rid nc i j k). assert (Hc : (c < nc * nc * nc)%nat) by (apply rid_lt; assumption).
  destruct (PT e c ltac:(unfold done; lia)) as (E1 & E2 & _). rewrite E2.
  rewrite (detf_val n Z Y (t_jac T (cie e c)) (x i) (x j) (x k)).
  - unfold wt, c. destruct (rid_dec nc i j k Hi Hj) as (-> & -> & ->). ring.
  - intros a b Ha Hb. rewrite E1 by assumption. apply rsum_ext. intros v Hv. f_equal.
    assert (G := Hg c v b Hc Hv Hb). unfold nb, n in G. rewrite (Fg c v b Hc Hv Hb) in G. injection G as G. rewrite <- G.
    assert (PX : forall d, (d < 3)%nat -> Pt c d = x (coord d i j k)) by (intros d Hd; unfold Pt, c; rewrite PtV by assumption; reflexivity).
    unfold gr. rewrite !PX by lia. reflexivity.
Qed.
End Vol.
