(** cycles of examples/average as iterates of one map, and box meshes (C62). *)
From Coq Require Import Reals List Arith ZArith Lra Lia Sorted Bool.
Import ListNotations.
Require Import Verif.Base Verif.NatSum Verif.RBase Verif.RSum Verif.Spec_Patch Verif.Spec_Full Verif.Model_Geom Verif.Model_Conn Verif.Model_Refine Verif.Model_Full
  Verif.Proof_Full4 Verif.Model_Average Verif.Spec_Average Verif.Proof_Average Verif.Proof_Average2 Verif.Proof_Average3 Verif.Model_Patch.
Local Open Scope nat_scope.

(** decidable form of on_patches *)
Definition hit (L : list nat) (Q : nat -> nat -> nat) (n : nat) : bool := existsb (fun p => existsb (fun k => Nat.eqb (Q p k) n) (seq 0 4)) L.
Lemma hit_on L Q n : hit L Q n = true <-> on_patches L Q n.
Proof.
  unfold hit. rewrite existsb_exists. split.
  - intros (p & Hp & H). apply existsb_exists in H. destruct H as (k & Hk & E). apply in_seq in Hk. apply Nat.eqb_eq in E. exists p, k. split; [exact Hp|]. split; [lia|exact E].
  - intros (p & k & Hp & Hk & E). exists p. split; [exact Hp|]. apply existsb_exists. exists k. split; [apply in_seq; lia|]. apply Nat.eqb_eq. exact E.
Qed.

Section Run.
  Variables (sv : solver) (N : nat -> nat -> nat) (X : nat -> nat -> R) (EC EN : nat -> nat -> nat) (L : nat -> list nat) (Q : nat -> nat -> nat).
  Hypothesis HS : sound sv N X EC EN L Q.
  Let nn := cm_nodes (sv_mesh sv).
  Let nc := cm_cells (sv_mesh sv).
  Let b0 := hit (L 0) Q.
  Let b3 := hit (L 3) Q.

  Lemma nodes_in : forall c l, c < nc -> l < 8 -> N c l < nn.
  Proof. intros c l Hc Hl. apply (ms_cells _ _ _ (so_mesh _ _ _ _ _ _ _ HS)); assumption. Qed.

  Lemma cycle_T f f' n : cycle_result N nc L Q f f' n <-> f' n = T N nc b0 b3 f n.
  Proof.
    unfold cycle_result, T, b0, b3. destruct (hit (L 0) Q n) eqn:E0; [apply hit_on in E0|].
    - split; [intros (A & _); auto|]. intros A. repeat split; intros; try contradiction; assumption.
    - assert (N0 : ~ on_patches (L 0) Q n) by (intros A; apply hit_on in A; congruence).
      destruct (hit (L 3) Q n) eqn:E3; [apply hit_on in E3|].
      + split; [intros (_ & A & _); auto|]. intros A. repeat split; intros; try contradiction; assumption.
      + assert (N3 : ~ on_patches (L 3) Q n) by (intros A; apply hit_on in A; congruence).
        split; [intros (_ & _ & A); auto|]. intros A. repeat split; intros; try contradiction; assumption.
  Qed.

  Lemma advance_ok s : length (ru_node s) = nn -> length (ru_mat s) = nc ->
    exists s', advance sv s = Ok s' /\ length (ru_node s') = nn /\ length (ru_mat s') = nc /\
      (forall c, c < nc -> val (ru_mat s') c = cell_mean N (val (ru_node s)) c) /\
      (forall n, n < nn -> val (ru_node s') n = T N nc b0 b3 (val (ru_node s)) n) /\
      ru_dumps s' = ru_dumps s /\ ru_id s' = ru_id s /\ ru_times s' = ru_times s /\ ru_next s' = ru_next s /\ ru_now s' = (ru_now s + 1 / 1000)%R.
  Proof.
    intros Hn Hm. destruct HS as [HM HE HB]. unfold advance.
    destruct (smooth_element_ok sv N X HM EC EN (ru_node s) (ru_mat s) HE Hn Hm) as (node & mat & -> & (A1 & A2 & A3 & A4)). cbn [bind].
    destruct (apply_boundary_ok sv L Q node HB A1) as (node' & -> & B1 & B2). cbn [bind].
    eexists. split; [reflexivity|]. cbn [ru_node ru_mat ru_dumps ru_id ru_times ru_next ru_now]. split; [exact B1|]. split; [exact A2|]. split; [exact A3|]. split; [|auto 6].
    intros n Hn'. apply (cycle_T (val (ru_node s)) (val node')). destruct (B2 n Hn') as [(C1 & C2)|[(C1 & C2 & C3)|(C1 & C2 & C3)]]; repeat split; intros; try contradiction; try assumption.
    rewrite C3. apply A4. exact Hn'.
  Qed.

  Lemma advances_ok k s : length (ru_node s) = nn -> length (ru_mat s) = nc ->
    exists s', loop k (fun _ => advance sv) s = Ok s' /\ length (ru_node s') = nn /\ length (ru_mat s') = nc /\
      (forall n, n < nn -> val (ru_node s') n = it N nc b0 b3 k (val (ru_node s)) n).
  Proof.
    intros Hn Hm. edestruct (loop_inv (fun k s' => length (ru_node s') = nn /\ length (ru_mat s') = nc /\
      (forall n, n < nn -> val (ru_node s') n = it N nc b0 b3 k (val (ru_node s)) n)) k) as (s' & E & H1 & H2 & H3).
    3:{ exists s'. split; [exact E|]. auto. }
    - split; [exact Hn|]. split; [exact Hm|]. intros n Hn'. reflexivity.
    - intros i t Hi (A1 & A2 & A3). destruct (advance_ok t A1 A2) as (t' & E & B1 & B2 & _ & B4 & _). exists t'. split; [exact E|]. split; [exact B1|]. split; [exact B2|].
      intros n Hn'. rewrite B4 by exact Hn'. rewrite it_S. apply (T_ext N nn nc b0 b3 nodes_in). exact A3.
  Qed.
End Run.

(** ---- refined elements ---- *)
Section Elements.
  Variables (p ne nn : nat) (CN : nat -> nat -> nat) (nd : nat -> nat).
  Let n1 := pts1 p.
  Let ns := Spec_Full.sub1 p.
  Let ng := n1 ^ 3.
  Let nc := ne * ns ^ 3.
  Hypothesis HC : forall e i j k c, e < ne -> i < ns -> j < ns -> k < ns -> c < 8 -> CN (cell_id p e i j k) c = nd (e * ng + corner_pt p i j k c).

  Definition gpt (e a b c : nat) : nat := e * ng + (a + b * n1 + c * n1 * n1).

  (** two points of a cell are linked *)
  Lemma cell_link F e i j k c c' : e < ne -> i < ns -> j < ns -> k < ns -> c < 8 -> c' < 8 ->
    linked CN nc F (nd (e * ng + corner_pt p i j k c')) -> linked CN nc F (nd (e * ng + corner_pt p i j k c)).
  Proof.
    intros He Hi Hj Hk Hc Hc' H. rewrite <- HC in * by assumption. apply (linked_cell CN nc F (cell_id p e i j k) c c'); try assumption.
    replace nc with (ne * (ns * ns * ns)) by (unfold nc; cbn [Nat.pow]; ring). apply cell_id_lt; assumption.
  Qed.
  Lemma ns_n1 : 1 <= ns /\ n1 = S ns.
  Proof. unfold ns, n1, Spec_Full.sub1, pts1. destruct p; lia. Qed.

  (** neighbouring points are linked, both ways *)
  Lemma step_link F e a b c a' b' c' : e < ne -> a < n1 -> b < n1 -> c < n1 -> a' < n1 -> b' < n1 -> c' < n1 ->
    a' <= S a -> a <= S a' -> b' <= S b -> b <= S b' -> c' <= S c -> c <= S c' ->
    linked CN nc F (nd (gpt e a' b' c')) -> linked CN nc F (nd (gpt e a b c)).
  Proof.
    intros He Ha Hb Hc Ha' Hb' Hc' A1 A2 B1 B2 C1 C2 H. destruct ns_n1 as (P1 & P2).
    assert (Sp : forall x x', x < n1 -> x' < n1 -> x' <= S x -> x <= S x' -> exists i u u', i < ns /\ u < 2 /\ u' < 2 /\ x = i + u /\ x' = i + u').
    { intros x x' Hx Hx' Q1 Q2. exists (Nat.min (Nat.min x x') (ns - 1)), (x - Nat.min (Nat.min x x') (ns - 1)), (x' - Nat.min (Nat.min x x') (ns - 1)). lia. }
    destruct (Sp a a' Ha Ha' A1 A2) as (i & u & u' & Hi & Hu & Hu' & -> & ->). destruct (Sp b b' Hb Hb' B1 B2) as (j & v & v' & Hj & Hv & Hv' & -> & ->). destruct (Sp c c' Hc Hc' C1 C2) as (k & w & w' & Hk & Hw & Hw' & -> & ->).
    assert (CP : forall u v w, u < 2 -> v < 2 -> w < 2 -> gpt e (i + u) (j + v) (k + w) = e * ng + corner_pt p i j k (u + 2 * v + 4 * w)).
    { clear. intros u v w Hu Hv Hw. unfold gpt, corner_pt. cbv zeta. fold n1. assert (u = 0 \/ u = 1) as [-> | ->] by lia; assert (v = 0 \/ v = 1) as [-> | ->] by lia; assert (w = 0 \/ w = 1) as [-> | ->] by lia; reflexivity. }
    rewrite CP in * by assumption. eapply cell_link; [..|exact H]; try assumption; lia.
  Qed.
  Lemma to_origin F e a b c : e < ne -> a < n1 -> b < n1 -> c < n1 -> (linked CN nc F (nd (gpt e 0 0 0)) <-> linked CN nc F (nd (gpt e a b c))).
  Proof.
    intros He Ha Hb Hc. assert (K : forall m a b c, a <= m -> b <= m -> c <= m -> a < n1 -> b < n1 -> c < n1 -> (linked CN nc F (nd (gpt e 0 0 0)) <-> linked CN nc F (nd (gpt e a b c)))).
    { clear a b c Ha Hb Hc. induction m as [|m IH]; intros a b c Am Bm Cm Ha Hb Hc.
      - replace a with 0 by lia. replace b with 0 by lia. replace c with 0 by lia. reflexivity.
      - rewrite (IH (Nat.min a m) (Nat.min b m) (Nat.min c m)) by lia. split; apply step_link; lia. }
    apply (K (n1 + n1)); lia.
  Qed.
  Lemma elem_link F e l l' : e < ne -> l < ng -> l' < ng -> linked CN nc F (nd (e * ng + l')) -> linked CN nc F (nd (e * ng + l)).
  Proof.
    intros He Hl Hl' H. destruct ns_n1 as (P1 & P2).
    assert (Dec : forall l, l < ng -> exists a b c, a < n1 /\ b < n1 /\ c < n1 /\ e * ng + l = gpt e a b c).
    { clear l l' Hl Hl' H. intros l Hl. exists (l mod n1), (l / n1 mod n1), (l / n1 / n1). split; [apply Nat.mod_upper_bound; lia|]. split; [apply Nat.mod_upper_bound; lia|].
      unfold ng in Hl. cbn [Nat.pow] in Hl. split; [apply Nat.div_lt_upper_bound; [lia|]; apply Nat.div_lt_upper_bound; lia|].
      unfold gpt. f_equal. rewrite (Nat.div_mod l n1) at 1 by lia. rewrite (Nat.div_mod (l / n1) n1) at 1 by lia. ring. }
    destruct (Dec l Hl) as (a & b & c & Ha & Hb & Hc & ->). destruct (Dec l' Hl') as (a' & b' & c' & Ha' & Hb' & Hc' & E). rewrite E in H.
    apply (to_origin F e a b c); try assumption. apply (to_origin F e a' b' c'); assumption.
  Qed.

  (** element e is linked through shared nodes to one with a node in F *)
  Lemma reach_link F e : reach (fun e l => nd (e * ng + l)) ne ng F e -> forall l, l < ng -> linked CN nc F (nd (e * ng + l)).
  Proof.
    intros R. induction R as [e l0 He Hl0 HF|e e' l1 l2 He Hl1 Hl2 E R IH]; intros l Hl.
    - apply (elem_link F e l l0 He Hl Hl0). apply linked_here. exact HF.
    - apply (elem_link F e l l1 He Hl Hl1). rewrite E. apply IH. exact Hl2.
  Qed.
End Elements.
