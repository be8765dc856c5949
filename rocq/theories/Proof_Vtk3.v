(** VTK's numbering of the vertices of a Lagrange hexahedron is one to one, for every order. *)
From Coq Require Import List Arith Lia Bool.
Require Import Verif.Spec_Vtk.

Inductive pos : Type := L | H | M (a : nat).
Definition ok (q : nat) (t : pos) : Prop := match t with M a => a < q | _ => True end.
Definition val (q : nat) (t : pos) : nat := match t with L => 0 | H => S q | M a => S a end.
Lemma pos_of q i : i <= S q -> exists t, ok q t /\ val q t = i.
Proof. intros Hi. destruct i as [|a]; [exists L; cbn; auto|]. destruct (Nat.eq_dec a q) as [->|N]; [exists H; cbn; auto|exists (M a); cbn; split; [lia|reflexivity]]. Qed.
Lemma val_inj q t t' : ok q t -> ok q t' -> t = t' -> val q t = val q t'.
Proof. intros _ _ ->. reflexivity. Qed.

Definition pr (q a b : nat) : nat := a + q * b.
Definition cu (q a b c : nat) : nat := a + q * (b + q * c).
Lemma pr_lt q a b : a < q -> b < q -> pr q a b < q * q.
Proof. unfold pr. nia. Qed.
Lemma pr_inj q a b a' b' : a < q -> b < q -> a' < q -> b' < q -> pr q a b = pr q a' b' -> a = a' /\ b = b'.
Proof. unfold pr. intros. assert (b = b') by nia. subst. lia. Qed.
Lemma cu_lt q a b c : a < q -> b < q -> c < q -> cu q a b c < q * (q * q).
Proof. unfold cu. intros. assert (b + q * c < q * q) by nia. nia. Qed.
Lemma cu_inj q a b c a' b' c' : a < q -> b < q -> c < q -> a' < q -> b' < q -> c' < q -> cu q a b c = cu q a' b' c' -> a = a' /\ b = b' /\ c = c'.
Proof.
  unfold cu. intros. assert (b + q * c = b' + q * c') by nia. assert (a = a') by lia. assert (c = c') by nia. subst. lia.
Qed.

Definition idx (q : nat) (x y z : pos) : nat :=
  let s t n := match t with H => n | _ => 0 end in
  match x, y, z with
  | M a, M b, M c => 8 + 12 * q + 6 * (q * q) + cu q a b c
  | M a, M b, t => 8 + 12 * q + 4 * (q * q) + pr q a b + s t (q * q)
  | M a, t, M c => 8 + 12 * q + 2 * (q * q) + pr q a c + s t (q * q)
  | t, M b, M c => 8 + 12 * q + pr q b c + s t (q * q)
  | M a, t, u => 8 + a + s t (2 * q) + s u (4 * q)
  | t, M b, u => 8 + b + match t with H => q | _ => 3 * q end + s u (4 * q)
  | t, u, M c => 8 + 8 * q + c + match t, u with H, H => 2 * q | H, _ => q | _, H => 3 * q | _, _ => 0 end
  | t, u, v => match t, u with H, H => 2 | H, _ => 1 | _, H => 3 | _, _ => 0 end + s v 4
  end.

Lemma eqb0 a : (S a =? 0) = false. Proof. reflexivity. Qed.
Lemma vtk_index_idx q x y z : ok q x -> ok q y -> ok q z -> vtk_index (S q) (val q x) (val q y) (val q z) = idx q x y z.
Proof.
  assert (E : forall a, ok q (M a) -> (S a =? S q) = false) by (intros a Ha; apply Nat.eqb_neq; cbn in Ha; lia).
  assert (E2 : (0 =? S q) = false) by reflexivity.
  intros Hx Hy Hz. unfold vtk_index. cbv zeta. rewrite (Nat.sub_succ q 0), Nat.sub_0_r.
  destruct x as [| |a]; destruct y as [| |b]; destruct z as [| |c]; cbn [val]; repeat (match goal with K : ok q (M ?a) |- _ => rewrite ?(E a K); clear K end); rewrite ?Nat.eqb_refl, ?eqb0, ?E2; cbn [orb Nat.eqb];
    rewrite ?Nat.sub_succ, ?Nat.sub_0_r; cbn [idx]; unfold pr, cu; lia.
Qed.

Ltac bounds := repeat match goal with
  | E : context [pr ?q ?a ?b] |- _ => lazymatch goal with K : pr q a b < _ |- _ => fail | _ => pose proof (pr_lt q a b ltac:(assumption) ltac:(assumption)) end
  | E : context [cu ?q ?a ?b ?c] |- _ => lazymatch goal with K : cu q a b c < _ |- _ => fail | _ => pose proof (cu_lt q a b c ltac:(assumption) ltac:(assumption) ltac:(assumption)) end end.

Lemma idx_inj q x y z x' y' z' : ok q x -> ok q y -> ok q z -> ok q x' -> ok q y' -> ok q z' -> idx q x y z = idx q x' y' z' -> x = x' /\ y = y' /\ z = z'.
Proof.
  intros Hx Hy Hz Hx' Hy' Hz' E.
  destruct x as [| |a]; destruct y as [| |b]; destruct z as [| |c]; cbn [ok idx] in Hx, Hy, Hz, E;
  (destruct x' as [| |a']; destruct y' as [| |b']; destruct z' as [| |c']; cbn [ok idx] in Hx', Hy', Hz', E; auto; bounds;
   first [ exfalso; lia
         | match type of E with context [cu q ?a ?b ?c] => match type of E with context [cu q ?a' ?b' ?c'] =>
             assert (K : cu q a b c = cu q a' b' c') by lia; apply cu_inj in K; [destruct K as (-> & -> & ->); auto|assumption..] end end
         | match type of E with _ + pr q ?a ?b + _ = _ + pr q ?a' ?b' + _ =>
             assert (K : pr q a b = pr q a' b') by lia; apply pr_inj in K; [destruct K as (-> & ->); auto|assumption..] end
         | repeat split; f_equal; lia ]).
Qed.

Lemma idx_lt q x y z : ok q x -> ok q y -> ok q z -> idx q x y z < (q + 2) * (q + 2) * (q + 2).
Proof.
  intros Hx Hy Hz. assert (T : (q + 2) * (q + 2) * (q + 2) = q * (q * q) + 6 * (q * q) + 12 * q + 8) by ring. rewrite T.
  destruct x as [| |a]; destruct y as [| |b]; destruct z as [| |c]; cbn [ok idx] in *;
    try (pose proof (pr_lt q _ _ Hx Hy)); try (pose proof (pr_lt q _ _ Hx Hz)); try (pose proof (pr_lt q _ _ Hy Hz)); try (pose proof (cu_lt q _ _ _ Hx Hy Hz)); lia.
Qed.

Theorem vtk_index_numbers p : numbers_vertices p (vtk_index p).
Proof.
  destruct p as [|q].
  - split; [intros I J K HI HJ HK|intros I J K I' J' K' HI HJ HK HI' HJ' HK' _]; [|lia].
    assert (I = 0) by lia. assert (J = 0) by lia. assert (K = 0) by lia. subst. cbn. lia.
  - split.
    + intros I J K HI HJ HK. destruct (pos_of q I HI) as (x & Hx & <-). destruct (pos_of q J HJ) as (y & Hy & <-). destruct (pos_of q K HK) as (z & Hz & <-).
      rewrite vtk_index_idx by assumption. pose proof (idx_lt q x y z Hx Hy Hz). unfold num_verts. replace (S q + 1) with (q + 2) by lia. assumption.
    + intros I J K I' J' K' HI HJ HK HI' HJ' HK'. destruct (pos_of q I HI) as (x & Hx & <-). destruct (pos_of q J HJ) as (y & Hy & <-). destruct (pos_of q K HK) as (z & Hz & <-).
      destruct (pos_of q I' HI') as (x' & Hx' & <-). destruct (pos_of q J' HJ') as (y' & Hy' & <-). destruct (pos_of q K' HK') as (z' & Hz' & <-).
      rewrite !vtk_index_idx by assumption. intros E. apply idx_inj in E; try assumption. destruct E as (-> & -> & ->). auto.
Qed.
