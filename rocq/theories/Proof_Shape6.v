(** Vertex and surface tables of the fixed-order elements. *)
From Coq Require Import List Reals Arith Lia Lra.
Import ListNotations.
Require Import Verif.Base Verif.RSum Verif.Model_Shape Verif.Spec_Shape.
Local Open Scope nat_scope.

Ltac rv := cbv -[Rplus Rmult Rminus Rdiv Ropp Rinv IZR].
Lemma INR_small n : INR n = IZR (Z.of_nat n). Proof. apply INR_IZR_INZ. Qed.
(** node coordinates over IZR, so that they compute *)
Definition nc (n g d : nat) : R := (-1 + 2 * IZR (Z.of_nat ((g / n ^ d) mod n)) / IZR (Z.of_nat (n - 1)))%R.
Lemma nc_eq n g d : node_coord n g d = nc n g d.
Proof. unfold node_coord, nc. rewrite !INR_small. reflexivity. Qed.
Lemma all2 (P : nat -> Prop) : (forall d, d < 2 -> P d) <-> P 0 /\ P 1.
Proof. split; [intros H; split; apply H; lia|]. intros (H0 & H1) d Hd. destruct d as [|[|d]]; auto. lia. Qed.
Lemma all3 (P : nat -> Prop) : (forall d, d < 3 -> P d) <-> P 0 /\ P 1 /\ P 2.
Proof. split; [intros H; repeat split; apply H; lia|]. intros (H0 & H1 & H2) d Hd. destruct d as [|[|[|d]]]; auto. lia. Qed.
Definition vmap_spec (E : elem) : Prop := forall v, v < e_nv E -> exists g, e_vert_node_map E v = Ok g /\ g < grid_side E ^ e_dim E /\
  ((forall d, d < e_dim E -> node_coord (grid_side E) g d = refc E v d) <-> ~ In v (wrong_map E)).
Ltac vm_entry :=
  eexists; split; [reflexivity|]; split; [apply Nat.ltb_lt; vm_compute; reflexivity|];
  cbn [e_dim]; first [rewrite all2|rewrite all3]; rewrite ?nc_eq; cbn [wrong_map In];
  first
  [ split; [intros _; let K := fresh in intros K; repeat (destruct K as [K|K]; [discriminate K|]); exact K|];
    intros _; repeat split; rv; lra
  | split; [intros H; exfalso; revert H; rv; intros H; repeat match goal with H : _ /\ _ |- _ => destruct H end; lra|];
    intros K; exfalso; apply K; auto ].
Tactic Notation "vmap_tac" integer(n) :=
  let v := fresh "v" in let Hv := fresh "Hv" in intros v Hv; do n (destruct v as [|v]; [vm_entry|]); exfalso; cbn in Hv; lia.
Lemma vm_quad4 : vmap_spec Quad4. Proof. vmap_tac 4. Qed.
Lemma vm_quad8 : vmap_spec Quad8. Proof. vmap_tac 8. Qed.
Lemma vm_quad12 : vmap_spec Quad12. Proof. vmap_tac 12. Qed.
Lemma vm_hex8 : vmap_spec Hex8. Proof. vmap_tac 8. Qed.
Lemma vm_hex20 : vmap_spec Hex20. Proof. vmap_tac 20. Qed.
Lemma vm_hex32 : vmap_spec Hex32. Proof. vmap_tac 32. Qed.

Definition onface (E : elem) (t : list (option nat)) (s : nat) : Prop :=
  (forall v, (exists i, i < face_size E /\ getu t (s * face_size E + i) = Ok v) <-> (v < e_nv E /\ refc E v (face_dir E s) = face_pos s)) /\
  (forall i j v, i < face_size E -> j < face_size E -> getu t (s * face_size E + i) = Ok v -> getu t (s * face_size E + j) = Ok v -> i = j).
Ltac find_i := first [exists 0; split; [cbn; lia|reflexivity] | exists 1; split; [cbn; lia|reflexivity] | exists 2; split; [cbn; lia|reflexivity]
 | exists 3; split; [cbn; lia|reflexivity] | exists 4; split; [cbn; lia|reflexivity] | exists 5; split; [cbn; lia|reflexivity]
 | exists 6; split; [cbn; lia|reflexivity] | exists 7; split; [cbn; lia|reflexivity] | exists 8; split; [cbn; lia|reflexivity]
 | exists 9; split; [cbn; lia|reflexivity] | exists 10; split; [cbn; lia|reflexivity] | exists 11; split; [cbn; lia|reflexivity] ].
Tactic Notation "face_tac" integer(n) integer(k) :=
  split;
  [ let v := fresh "v" in intros v; split;
    [ let i := fresh in let Hi := fresh in let G := fresh in intros (i & Hi & G);
      do k (destruct i as [|i]; [cbn in G; injection G as <-; split; [cbn; lia|rv; lra]|]); exfalso; cbn in Hi; lia
    | let Hv := fresh "Hv" in let Hr := fresh in intros (Hv & Hr);
      do n (destruct v as [|v]; [first [solve [find_i]|exfalso; revert Hr; rv; lra]|]); exfalso; cbn in Hv; lia ]
  | let i := fresh in let j := fresh in let v := fresh in let Hi := fresh in let Hj := fresh in let G := fresh in intros i j v Hi Hj G;
    do k (destruct i as [|i]; [cbn in G; injection G as <-; do k (destruct j as [|j]; [first [reflexivity|discriminate]|]); exfalso; cbn in Hj; lia|]);
    exfalso; cbn in Hi; lia ].
Lemma sf_quad4 : exists t, quad4_surface = Ok t /\ forall s, s < 4 -> onface Quad4 t s.
Proof.
  eexists. split; [vm_compute; reflexivity|]. intros s Hs. do 4 (destruct s as [|s]; [face_tac 4 2|]). exfalso; lia.
Qed.
Lemma sf_quad8 : exists t, quad8_surface = Ok t /\ forall s, s < 4 -> onface Quad8 t s.
Proof.
  eexists. split; [vm_compute; reflexivity|]. intros s Hs. do 4 (destruct s as [|s]; [face_tac 8 3|]). exfalso; lia.
Qed.
Lemma sf_quad12 : exists t, quad12_surface = Ok t /\ forall s, s < 4 -> onface Quad12 t s.
Proof.
  eexists. split; [vm_compute; reflexivity|]. intros s Hs. do 4 (destruct s as [|s]; [face_tac 12 4|]). exfalso; lia.
Qed.
Lemma sf_hex8 : exists t, hex8_surface = Ok t /\ forall s, s < 6 -> onface Hex8 t s.
Proof.
  eexists. split; [vm_compute; reflexivity|]. intros s Hs. do 6 (destruct s as [|s]; [face_tac 8 4|]). exfalso; lia.
Qed.
Lemma sf_hex20 : exists t, hex20_surface = Ok t /\ (forall s, s < 6 -> s <> 2 -> onface Hex20 t s) /\
  forall i, i < 8 -> getu t (2 * 8 + i) = Err Uninit.
Proof.
  eexists. split; [vm_compute; reflexivity|]. split.
  - intros s Hs Hn. do 6 (destruct s as [|s]; [first [exfalso; lia|face_tac 20 8]|]). exfalso; lia.
  - intros i Hi. do 8 (destruct i as [|i]; [reflexivity|]). exfalso; lia.
Qed.
Lemma sf_hex32 : exists t, hex32_surface = Ok t /\ (forall s, s < 6 -> s <> 2 -> onface Hex32 t s) /\
  (forall v, (exists i, i < 12 /\ getu t (2 * 12 + i) = Ok v) <-> v <> 5 /\ v < 32 /\ refc Hex32 v (face_dir Hex32 2) = face_pos 2) /\
  getu t (2 * 12 + 5) = Ok 25 /\ getu t (2 * 12 + 11) = Ok 25.
Proof.
  eexists. split; [vm_compute; reflexivity|]. split; [|split; [|split; reflexivity]].
  - intros s Hs Hn. do 6 (destruct s as [|s]; [first [exfalso; lia|face_tac 32 12]|]). exfalso; lia.
  - intros v. split.
    + intros (i & Hi & G). do 12 (destruct i as [|i]; [cbn in G; injection G as <-; split; [lia|]; split; [lia|rv; lra]|]). exfalso; lia.
    + intros (H5 & Hv & Hr). do 32 (destruct v as [|v]; [first [solve [find_i]|exfalso; first [lia|revert Hr; rv; lra]]|]). exfalso; lia.
Qed.
