(** The area check: assembling the parts (C67). *)
From Coq Require Import List Arith ZArith Reals Lia Lra.
Import ListNotations.
Require Import Verif.Base Verif.RBase Verif.RSum Verif.Spec_Mat Verif.Spec_Lagrange Verif.Lagrange_Math Verif.Spec_Quad Verif.Spec_Ref Verif.Model_Ref
  Verif.Proof_Ref Verif.Proof_Ref5 Verif.Model_Jac Verif.Proof_Jac Verif.Spec_HexN Verif.Model_HexN Verif.Proof_HexN2 Verif.Proof_HexN3 Verif.Model_Gcl Verif.Spec_Gcl
  Verif.Proof_Gcl Verif.Proof_Gcl2 Verif.Proof_Gcl3.
Require Verif.Prop_Ref Verif.Prop_HexN.
Open Scope R_scope.

Lemma rsum_rid n (G : nat -> R) : rsum (n * n * n) G = rsum n (fun k => rsum n (fun j => rsum n (fun i => G (rid n i j k)))).
Proof.
  replace (n * n * n)%nat with (n * (n * n))%nat by ring. rewrite rsum_mul. apply rsum_ext. intros k _. rewrite rsum_mul. apply rsum_ext. intros j _.
  apply rsum_ext. intros i _. f_equal. unfold rid. ring.
Qed.

Definition ix (n d v : nat) : nat := match d with 0%nat => (v mod n)%nat | 1%nat => (v / n mod n)%nat | _ => (v / n / n)%nat end.
Lemma ix_lt n d v : (v < n * n * n)%nat -> (ix n d v < n)%nat.
Proof. intros H. destruct (pos3 n v H) as (A & B & C & _). destruct d as [|[|d]]; assumption. Qed.

(** gradient of basis function v at a point *)
Definition gr (n : nat) (Z : nat -> R) (X : nat -> R) (v d : nat) : R :=
  match d with
  | 0%nat => dell n Z (ix n 0 v) (X 0%nat) * ell n Z (ix n 1 v) (X 1%nat) * ell n Z (ix n 2 v) (X 2%nat)
  | 1%nat => ell n Z (ix n 0 v) (X 0%nat) * dell n Z (ix n 1 v) (X 1%nat) * ell n Z (ix n 2 v) (X 2%nat)
  | _ => ell n Z (ix n 0 v) (X 0%nat) * ell n Z (ix n 1 v) (X 1%nat) * dell n Z (ix n 2 v) (X 2%nat)
  end.

Lemma gradient_is p lob m np pos Pt : length lob = nodes_1d p -> distinct (verts_1d p) (vert_coord p lob) -> pos_holds m pos Pt ->
  (verts_1d p * verts_1d p * verts_1d p <= np)%nat ->
  exists h tg, setup_hexn p lob = Ok h /\ gradient_table h m (verts_1d p * verts_1d p * verts_1d p) np pos = Ok tg /\
   forall r v d, (r < m)%nat -> (v < verts_1d p * verts_1d p * verts_1d p)%nat -> (d < 3)%nat ->
     ref_gradient (verts_1d p * verts_1d p * verts_1d p) tg r v d = Ok (gr (verts_1d p) (vert_coord p lob) (Pt r) v d).
Proof.
  intros L D Hp Hnp. destruct (setup_ok p lob L) as (h & E & _ & Hn & Hv & _). rewrite <- Hn in Hnp.
  destruct (gradient_table_ok h (vert_coord p lob) m np pos Pt) as (tg & Eg & Fg); try (rewrite Hn; assumption); try assumption.
  rewrite Hn in *. exists h, tg. split; [exact E|]. split; [exact Eg|]. intros r v d Hr Hv' Hd.
  destruct (pos3 _ v Hv') as (A & B & C & Q).
  destruct (Fg r (v mod verts_1d p) (v / verts_1d p mod verts_1d p) (v / verts_1d p / verts_1d p))%nat as (G0 & G1 & G2); try assumption.
  rewrite <- gid_rid, <- Q in G0, G1, G2. destruct d as [|[|[|d]]]; [exact G0|exact G1|exact G2|lia].
Qed.

Section Main.
Variables (p : nat) (lob leg legw : list R) (L tol : R).
Let nc := (nodes_1d p - 1)%nat.
Let n := verts_1d p.
Let nb := (n * n * n)%nat.
Let np := ((nc + 1) * (nc * nc) * 3)%nat.
Let Z := vert_coord p lob.
Let lo i := nth i lob 0.
Let x i := nth i leg 0.
Let w i := nth i legw 0.
Hypothesis Llob : length lob = (nc + 1)%nat.
Hypothesis Lleg : length leg = nc.
Hypothesis Llegw : length legw = nc.
Hypothesis D : distinct n Z.
Hypothesis End0 : lo 0%nat = -1.
Hypothesis End1 : lo nc = 1.
Hypothesis T0 : 0 <= tol.
Hypothesis Q : quad_rule nc (2 * nc - 1) tol x w.
Hypothesis HL : forall a, (a < n)%nat -> growth n Z a <= L.

Lemma nc_deg : (2 * n - 2 <= S (2 * nc - 1))%nat.
Proof. unfold n, nc, verts_1d, nodes_1d. destruct (Nat.eqb_spec p 0); lia. Qed.
Lemma nodes_nc : nodes_1d p = (nc + 1)%nat.
Proof. unfold nc, nodes_1d. destruct (Nat.eqb_spec p 0); lia. Qed.

(** the area-vector function in direction j for the coordinates u, v *)
Let f d v t := ell n Z (ix n d v) t.
Let g d v t := dell n Z (ix n d v) t.
Let Cx (Y : nat -> nat -> R) (i j : nat) : R -> R -> R -> R :=
  match j with
  | 0%nat => C0 nb (f 0) (f 1) (f 2) (g 1) (g 2) (fun v => Y v (nx i)) (fun v => Y v (nx (nx i)))
  | 1%nat => C1 nb (f 0) (f 1) (f 2) (g 0) (g 2) (fun v => Y v (nx i)) (fun v => Y v (nx (nx i)))
  | _ => C2 nb (f 0) (f 1) (f 2) (g 0) (g 1) (fun v => Y v (nx i)) (fun v => Y v (nx (nx i)))
  end.
Lemma cof_C Y X J i j : (i < 3)%nat -> (j < 3)%nat -> (forall a b, (a < 3)%nat -> (b < 3)%nat -> J a b = rsum nb (fun v => gr n Z X v b * Y v a)) ->
  cof J i j = Cx Y i j (X 0%nat) (X 1%nat) (X 2%nat).
Proof.
  intros Hi Hj HJ. unfold cof. assert (N1 : forall a, (nx a < 3)%nat) by (intros [|[|a]]; cbn; lia). rewrite !HJ by apply N1.
  destruct j as [|[|[|j]]]; [| | |lia]; reflexivity.
Qed.

Definition area_bound (i : nat) (Y : nat -> nat -> R) : R :=
  6 * (tol * (INR (2 * n - 2) * (L * L))) * ((2 + tol) * (INR (n - 1) * (L * L)) * ((2 + tol) * (INR (n - 1) * (L * L)))) * (total nb Y (nx i) * total nb Y (nx (nx i))).

Lemma faces_bound Y i : Rabs (
  Q2 nc w (fun q r => Cx Y i 0 (lo nc) (x q) (x r) - Cx Y i 0 (lo 0%nat) (x q) (x r)) +
  Q2 nc w (fun q r => Cx Y i 1 (x q) (lo nc) (x r) - Cx Y i 1 (x q) (lo 0%nat) (x r)) +
  Q2 nc w (fun q r => Cx Y i 2 (x q) (x r) (lo nc) - Cx Y i 2 (x q) (x r) (lo 0%nat))) <= area_bound i Y.
Proof.
  rewrite End0, End1. cbn [Cx]. rewrite faces. unfold area_bound, total. apply bil_bound. intros a b Ha Hb.
  apply (pair_bound nc (2 * nc - 1) tol x w n Z L Q T0 D HL); try (apply ix_lt; assumption). apply nc_deg.
Qed.

Theorem area_main : exists P h tg, build_patches nc lob leg legw = Ok P /\ setup_hexn p lob = Ok h /\
  gradient_table h np nb (nodes_1d p * nodes_1d p * nodes_1d p) (pt_pos P) = Ok tg /\
  forall grad, (forall r v d, (r < np)%nat -> (v < nb)%nat -> (d < 3)%nat -> ref_gradient nb tg r v d = Ok (grad r v d)) ->
  forall ne vmap N X T1 e, (e < ne)%nat ->
  let T := get_pt_jacobian ne np nb (pt_in_elem np) vmap N X grad T1 in
  (forall r, (r < np)%nat -> exists R : nat -> R, (forall d, (d < 3)%nat -> ref_patch_positions P r d = Ok (R d)) /\
    t_det T (pt_in_elem np e r) = det3 (t_jac T (pt_in_elem np e r)) /\
    forall a b, (a < 3)%nat -> (b < 3)%nat -> t_jac T (pt_in_elem np e r) a b = rsum nb (fun v => gr n Z R v b * X (N e (vmap v)) a)) /\
  ((forall r, (r < np)%nat -> t_det T (pt_in_elem np e r) <> 0) ->
    exists t, surf_tally P (nc * nc * nc) np T e = Ok t /\ forall i, (i < 3)%nat -> Rabs (t i) <= area_bound i (fun v => X (N e (vmap v)))) /\
  ((exists r, (r < np)%nat /\ t_det T (pt_in_elem np e r) = 0) -> surf_tally P (nc * nc * nc) np T e = Err DivZero).
Proof.
  destruct (Prop_Ref.C37_patch_numbering nc lob leg legw Llob Lleg Llegw) as (P & EP & _ & id & HP & _ & Hsur).
  assert (Enp : (3 * nc * nc * (nc + 1))%nat = np) by (unfold np; ring). rewrite Enp in *.
  set (Pt := fun r d => match getu (pt_pos P) (r * 3 + d) with Ok v => v | Err _ => 0 end).
  assert (HPt : pos_holds np (pt_pos P) Pt).
  { intros r d Hr Hd. destruct (Hsur r Hr) as (i & j & k & s & Hi & Hj & Hk & Hs & <-). destruct (HP i j k s Hi Hj Hk Hs) as (_ & _ & A & _).
    unfold Pt. unfold ref_patch_positions in A. rewrite A by exact Hd. reflexivity. }
  assert (PtV : forall i j k s d, (i < nc)%nat -> (j < nc)%nat -> (k < nc)%nat -> (s < 6)%nat -> (d < 3)%nat -> Pt (id i j k s) d = patch_coord lob leg s i j k d).
  { intros i j k s d Hi Hj Hk Hs Hd. destruct (HP i j k s Hi Hj Hk Hs) as (_ & _ & A & _). unfold Pt. unfold ref_patch_positions in A. rewrite A by exact Hd. reflexivity. }
  destruct (gradient_is p lob np (nodes_1d p * nodes_1d p * nodes_1d p) (pt_pos P) Pt) as (h & tg & Eh & Eg & Fg).
  { rewrite nodes_nc. exact Llob. } { exact D. } { exact HPt. }
  { assert (n <= nodes_1d p)%nat by (unfold n, nodes_1d, verts_1d; destruct (Nat.eqb_spec p 0); lia). apply Nat.mul_le_mono; [apply Nat.mul_le_mono|]; assumption. }
  exists P, h, tg. split; [exact EP|]. split; [exact Eh|]. split; [exact Eg|].
  intros grad Hg ne vmap N X T1 e He T.
  assert (Inj : forall e l e' l', (e < ne)%nat -> (e' < ne)%nat -> (l < np)%nat -> (l' < np)%nat -> pt_in_elem np e l = pt_in_elem np e' l' -> e = e' /\ l = l').
  { intros a b a' b' _ _ Hb Hb'. apply pt_in_elem_inj; assumption. }
  destruct (pt_all ne np nb (pt_in_elem np) vmap N X grad T1 Inj) as (PT & _). fold T in PT.
  assert (PTe : forall r, (r < np)%nat -> pt_ok nb (pt_in_elem np) vmap N X grad T e r) by (intros r Hr; apply PT; unfold done; lia).
  split.
  { intros r Hr. exists (Pt r). split; [intros d Hd; unfold ref_patch_positions; apply HPt; assumption|]. destruct (PTe r Hr) as (E1 & E2 & _). split; [exact E2|].
    intros a b Ha Hb. rewrite E1 by assumption. apply rsum_ext. intros v Hv. f_equal.
    assert (G := Hg r v b Hr Hv Hb). unfold nb, n in G, Hv. rewrite Fg in G by assumption. injection G as G. symmetry. exact G. }
  set (rr := fun c s : nat => id (c mod nc)%nat (c / nc mod nc)%nat (c / nc / nc)%nat s).
  set (wt := fun c s : nat => patch_weight legw s (c mod nc)%nat (c / nc mod nc)%nat (c / nc / nc)%nat).
  assert (Hr : forall c s, (c < nc * nc * nc)%nat -> (s < 6)%nat -> ref_patches_in_cell P c s = Ok (Z.of_nat (rr c s)) /\ ref_patch_g_weights P (rr c s) = Ok (wt c s)).
  { intros c s Hc Hs. destruct (pos3 nc c Hc) as (A & B & C & E). destruct (HP _ _ _ s C B A Hs) as (F1 & _ & _ & F2). split; [|exact F2].
    rewrite E at 1. exact F1. }
  assert (Hrl : forall c s, (c < nc * nc * nc)%nat -> (s < 6)%nat -> (rr c s < np)%nat).
  { intros c s Hc Hs. destruct (pos3 nc c Hc) as (A & B & C & E). apply (HP _ _ _ s C B A Hs). }
  split.
  - intros Hdet.
    set (B := fun c s => match t_inv T (pt_in_elem np e (rr c s)) with Ok b => b | Err _ => fun _ _ => 0 end).
    assert (HB : forall c s, (c < nc * nc * nc)%nat -> (s < 6)%nat -> t_inv T (pt_in_elem np e (rr c s)) = Ok (B c s)).
    { intros c s Hc Hs. destruct (PTe (rr c s) (Hrl c s Hc Hs)) as (_ & E2 & E3).
      destruct (mat_inverse_ok (t_jac T (pt_in_elem np e (rr c s)))) as (b & Eb & _); [rewrite <- E2; apply Hdet; apply Hrl; assumption|].
      unfold B. rewrite E3, Eb. reflexivity. }
    destruct (tally_val P (nc * nc * nc) np T e rr wt Hr B HB) as (t & Et & Ht). exists t. split; [exact Et|]. intros i Hi.
    set (Y := fun v => X (N e (vmap v))).
    rewrite (Ht i Hi).
    rewrite (rsum_ext (nc * nc * nc) _ (fun c => rsum 6 (fun s => sg s * (Cx Y i (s / 2) (Pt (rr c s) 0%nat) (Pt (rr c s) 1%nat) (Pt (rr c s) 2%nat) * wt c s)))).
    2:{ intros c Hc. apply rsum_ext. intros s Hs. assert (Hl := Hrl c s Hc Hs). destruct (PTe (rr c s) Hl) as (E1 & E2 & E3).
        assert (S2 : (s / 2 < 3)%nat) by (apply Nat.div_lt_upper_bound; lia).
        rewrite <- (cof_C Y (Pt (rr c s)) (t_jac T (pt_in_elem np e (rr c s))) i (s / 2) Hi S2).
        - rewrite <- (inv_cof _ (B c s) i (s / 2)); [rewrite E2; ring| |rewrite <- E3; apply HB; assumption|exact Hi|exact S2].
          rewrite <- E2. apply Hdet. exact Hl.
        - intros a b Ha Hb. rewrite E1 by assumption. apply rsum_ext. intros v Hv. f_equal.
          assert (G := Hg (rr c s) v b Hl Hv Hb). unfold nb, n in G, Hv. rewrite Fg in G by assumption. injection G as G. symmetry. exact G. }
    rewrite rsum_rid.
    rewrite (rsum_ext nc _ (fun k => rsum nc (fun j => rsum nc (fun i0 =>
      w j * w k * (Cx Y i 0 (lo (S i0)) (x j) (x k) - Cx Y i 0 (lo i0) (x j) (x k)) +
      w i0 * w k * (Cx Y i 1 (x i0) (lo (S j)) (x k) - Cx Y i 1 (x i0) (lo j) (x k)) +
      w i0 * w j * (Cx Y i 2 (x i0) (x j) (lo (S k)) - Cx Y i 2 (x i0) (x j) (lo k)))))).
    + rewrite cells_sum. apply faces_bound.
    + intros k Hk. apply rsum_ext. intros j Hj. apply rsum_ext. intros i0 Hi0.
      unfold rr, wt. destruct (rid_dec nc i0 j k Hi0 Hj) as (-> & -> & ->).
      cbn [rsum]. rewrite !PtV by (assumption || lia). unfold patch_coord, patch_weight, sg.
      change (0 / 2)%nat with 0%nat. change (1 / 2)%nat with 0%nat. change (2 / 2)%nat with 1%nat. change (3 / 2)%nat with 1%nat. change (4 / 2)%nat with 2%nat. change (5 / 2)%nat with 2%nat.
      change (0 mod 2)%nat with 0%nat. change (1 mod 2)%nat with 1%nat. change (2 mod 2)%nat with 0%nat. change (3 mod 2)%nat with 1%nat. change (4 mod 2)%nat with 0%nat. change (5 mod 2)%nat with 1%nat.
      cbn [Nat.eqb coord]. rewrite !Nat.add_0_r, !Nat.add_1_r. fold (x i0) (x j) (x k) (w i0) (w j) (w k) (lo i0) (lo j) (lo k) (lo (S i0)) (lo (S j)) (lo (S k)). ring.
  - intros (r & Hr' & Hz). apply (tally_err P (nc * nc * nc) np T e rr wt Hr).
    + intros c s Hc Hs. destruct (PTe (rr c s) (Hrl c s Hc Hs)) as (_ & _ & E3). rewrite E3.
      destruct (Req_dec (det3 (t_jac T (pt_in_elem np e (rr c s)))) 0) as [Z0|Z0]; [right; apply mat_inverse_err; exact Z0|left].
      destruct (mat_inverse_ok _ Z0) as (b & Eb & _). exists b. exact Eb.
    + destruct (Hsur r Hr') as (i & j & k & s & Hi & Hj & Hk & Hs & E). exists (rid nc i j k), s. split; [apply rid_lt; assumption|]. split; [exact Hs|].
      unfold rr. destruct (rid_dec nc i j k Hi Hj) as (-> & -> & ->). rewrite E. destruct (PTe r Hr') as (_ & E2 & E3). rewrite E3. apply mat_inverse_err. rewrite <- E2. exact Hz.
Qed.
End Main.
