(** Corollaries, witnesses and non-vacuity examples for Prop_Lagrange. *)
From Coq Require Import List Reals NArith Arith Lia Lra.
Import ListNotations.
Require Import Verif.Base Verif.RBase Verif.RSum Verif.Poly Verif.RDer Verif.Spec_Lagrange Verif.Spec_Mat
  Verif.Model_Common Verif.Model_Lagrange Verif.Lagrange_Math Verif.Proof_Lagrange Verif.Proof_LagElem.
Open Scope R_scope.

Lemma hitsum_two n z x i j : (i < j)%nat -> (j < n)%nat ->
  Rabs (z i - x) < tol -> Rabs (z j - x) < tol ->
  (forall k, (k < n)%nat -> k <> i -> k <> j -> tol <= Rabs (z k - x)) ->
  hitsum n z x = (N.of_nat i + 1 + (N.of_nat j + 1))%N.
Proof.
  intros Hij Hj Hi' Hj' H. induction n as [|n IH]; [lia|]. unfold hitsum. cbn [fold_up]. fold (hitsum n z x).
  destruct (Nat.eq_dec j n) as [->|E].
  - rewrite (hitsum_one n z x i) by (try assumption; try lia; intros; apply H; lia).
    rewrite (proj2 (almost_equal_true (z n) x) Hj'). reflexivity.
  - rewrite IH by (try lia; intros; apply H; lia).
    rewrite (proj2 (almost_equal_false (z n) x)) by (apply H; lia). lia.
Qed.

Lemma find_two n z x i j : (i < n)%nat -> (j < n)%nat -> i <> j ->
  Rabs (z i - x) < tol -> Rabs (z j - x) < tol ->
  (forall k, (k < n)%nat -> k <> i -> k <> j -> tol <= Rabs (z k - x)) ->
  find_coincident_vertex n z x = ((N.of_nat i + N.of_nat j + 1) mod 2 ^ 64)%N.
Proof.
  intros Hi Hj Ne Hi' Hj' H. rewrite find_general.
  assert (E : hitsum n z x = (N.of_nat i + 1 + (N.of_nat j + 1))%N).
  { destruct (Nat.lt_total i j) as [L|[L|L]]; [|contradiction|].
    - apply hitsum_two; assumption.
    - rewrite (hitsum_two n z x j i) by (try assumption; intros; apply H; assumption). lia. }
  rewrite E.
  replace (2 ^ 64 - 1 + (N.of_nat i + 1 + (N.of_nat j + 1)))%N with ((N.of_nat i + N.of_nat j + 1) + 1 * 2 ^ 64)%N by lia.
  apply N.mod_add. discriminate.
Qed.

Lemma tol_small : tol < 1.
Proof. unfold tol. apply Rmult_lt_reg_r with (2 ^ 52); [apply pow_lt; lra|].
  unfold Rdiv. rewrite Rmult_assoc, Rinv_l by (apply pow_nonzero; lra).
  assert (2 ^ 1 < 2 ^ 52) by (apply Rlt_pow; [lra|lia]). lra. Qed.

Lemma find_wrong : exists n z x,
  distinct n z /\ x = z 0%nat /\ find_coincident_vertex n z x = 2%N /\ Rabs (z 2%nat - x) = 1.
Proof.
  set (z := fun k => match k with O => 0 | S O => tol / 2 | _ => 1 end).
  exists 3%nat, z, 0.
  assert (T := tol_small). assert (P := tol_pos). repeat split.
  - intros i j Hi Hj Ne. destruct i as [|[|[|i]]]; destruct j as [|[|[|j]]]; try lia; unfold z; lra.
  - rewrite (find_two 3 z 0 0 1); [reflexivity|lia|lia|lia| | |].
    + unfold z. rewrite Rminus_0_r, Rabs_R0. exact P.
    + unfold z. rewrite Rminus_0_r, Rabs_pos_eq by lra. lra.
    + intros k Hk N0 N1. destruct k as [|[|[|k]]]; try lia. unfold z.
      rewrite Rminus_0_r, Rabs_R1. lra.
  - unfold z. rewrite Rminus_0_r. apply Rabs_R1.
Qed.

Lemma ell_facts N Z i : distinct N Z -> (i < N)%nat ->
  poly_lt N (ell N Z i) /\
  (forall k, (k < N)%nat -> ell N Z i (Z k) = if Nat.eqb k i then 1 else 0) /\
  (forall x, rsum N (fun j => ell N Z j x) = 1).
Proof.
  intros D Hi. split; [apply ell_poly; exact Hi|]. split.
  - intros k Hk. apply ell_delta; assumption.
  - intros x. apply ell_sum; [exact D|lia].
Qed.

Section Found.
  Variables (Nv : nat) (Z w0 w : nat -> R) (X : R).
  Hypotheses (Hn : (N.of_nat Nv < 2 ^ 64)%N) (Hs : separated Nv Z)
             (Ew : compute_barycentric_weights Nv Z w0 = Ok w).
  Lemma found_w : weights_of Nv Z w.
  Proof.
    destruct (weights_ok_spec Nv Z w0 (separated_distinct _ _ Hs)) as (w' & E & W & _).
    rewrite Ew in E. inversion E; subst. exact W.
  Qed.
  Let D := separated_distinct _ _ Hs.
  Lemma eval_found i : (i < Nv)%nat -> clean Nv Z X ->
    eval Nv i (find_coincident_vertex Nv Z X) Z w X = Ok (ell Nv Z i X).
  Proof. intros Hi Hc. apply eval_correct; [exact D|exact found_w|exact Hi|apply find_point_ok; assumption]. Qed.
  Lemma eval_interp_found c : clean Nv Z X ->
    eval_interp Nv (find_coincident_vertex Nv Z X) Z w X (fun i => Ok (c i)) = Ok (interp Nv Z c X).
  Proof. intros Hc. apply eval_interp_correct; [exact D|exact found_w|apply find_point_ok; assumption|reflexivity]. Qed.
  Lemma eval_interp_repro f : clean Nv Z X -> poly_lt Nv f ->
    eval_interp Nv (find_coincident_vertex Nv Z X) Z w X (fun i => Ok (f (Z i))) = Ok (f X).
  Proof. intros Hc Hf. rewrite (eval_interp_found (fun i => f (Z i)) Hc). f_equal. apply interp_repro; [exact D|exact Hf]. Qed.
  Lemma der1_found c : (0 < Nv)%nat -> clean Nv Z X ->
    exists d c2, eval_der_interp Nv 1 (find_coincident_vertex Nv Z X) Z w X (fun i => Ok (c i)) = Ok (d, c2) /\
      derivable_pt_lim (interp Nv Z c) X d.
  Proof.
    intros H0 Hc. destruct (order1 Nv Z w X (fun i => Ok (c i)) c D found_w (fun _ _ => eq_refl) _ H0
      (find_point_ok _ _ _ Hn Hs Hc)) as (d & c2 & E & Hd & _). exists d, c2. auto.
  Qed.
  Lemma der1_basis_found i C : (i < Nv)%nat -> clean Nv Z X ->
    exists d c2, eval_der Nv 1 i (find_coincident_vertex Nv Z X) Z w X C = Ok (d, c2) /\
      derivable_pt_lim (ell Nv Z i) X d.
  Proof.
    intros Hi Hc. destruct (eval_der1_correct Nv Z w X _ i C D found_w Hi
      (find_point_ok _ _ _ Hn Hs Hc)) as (d & c2 & E & Hd & _). exists d, c2. auto.
  Qed.
  Lemma der2_found c : (0 < Nv)%nat -> clean Nv Z X ->
    exists d c2, eval_der_interp Nv 2 (find_coincident_vertex Nv Z X) Z w X (fun i => Ok (c i)) = Ok (d, c2) /\
      is_der2 (interp Nv Z c) X d.
  Proof.
    intros H0 Hc. apply (order2 Nv Z w X (fun i => Ok (c i)) c D found_w (fun _ _ => eq_refl) _ H0
      (find_point_ok _ _ _ Hn Hs Hc)).
  Qed.
  Lemma der0_found c : clean Nv Z X ->
    exists c2, eval_der_interp Nv 0 (find_coincident_vertex Nv Z X) Z w X (fun i => Ok (c i)) = Ok (0, c2).
  Proof.
    intros Hc. eexists. apply (order0 Nv _ Z w X (fun i => Ok (c i)) c (fun _ _ => eq_refl) D found_w
      (find_point_ok _ _ _ Hn Hs Hc)).
  Qed.
  Lemma der3_found c : (0 < Nv)%nat -> (forall i, (i < Nv)%nat -> tol <= Rabs (Z i - X)) ->
    exists d2 d3 c2, is_der2 (interp Nv Z c) X d2 /\ is_der3 (interp Nv Z c) X d3 /\
      eval_der_interp Nv 3 (find_coincident_vertex Nv Z X) Z w X (fun i => Ok (c i)) =
      Ok (d3 + 3 * d2 * rsum Nv (fun k => / (X - Z k)), c2).
  Proof.
    intros H0 Hf. apply (order3_free Nv Z w X (fun i => Ok (c i)) c D found_w (fun _ _ => eq_refl)); [exact H0| |].
    - rewrite find_none by exact Hf. lia.
    - intros i Hi Q. specialize (Hf i Hi). replace (Z i - X) with 0 in Hf by lra.
      rewrite Rabs_R0 in Hf. generalize tol_pos. lra.
  Qed.
End Found.

Lemma eval_interp_vertex Nv Z w0 w c i : (N.of_nat Nv < 2 ^ 64)%N -> separated Nv Z ->
  compute_barycentric_weights Nv Z w0 = Ok w -> (i < Nv)%nat ->
  eval_interp Nv (find_coincident_vertex Nv Z (Z i)) Z w (Z i) (fun k => Ok (c k)) = Ok (c i).
Proof.
  intros Hn Hs Ew Hi. rewrite (eval_interp_found Nv Z w0 w (Z i) Hn Hs Ew c).
  - f_equal. apply interp_node; [apply separated_distinct; exact Hs|exact Hi].
  - left. exists i. auto.
Qed.

Lemma constructor_ok order Z w0 :
  (N.of_nat ((order + 1) * (order + 1) * (order + 1)) <= 2 ^ 64)%N -> separated (order + 1) Z ->
  exists e, new_lagrange_element order Z w0 = Ok e.
Proof. intros H1 H2. destruct (new_element_ok order Z w0 H1 H2) as (e & E & _). exists e. exact E. Qed.

Lemma phi3_facts n Z : distinct n Z -> (0 < n)%nat ->
  (forall i j k a b c, (i < n)%nat -> (j < n)%nat -> (k < n)%nat -> (a < n)%nat -> (b < n)%nat -> (c < n)%nat ->
     phi3 n Z i j k (Z a) (Z b) (Z c) =
     if (Nat.eqb a i && Nat.eqb b j && Nat.eqb c k)%bool then 1 else 0) /\
  (forall x y z, rsum n (fun k => rsum n (fun j => rsum n (fun i => phi3 n Z i j k x y z))) = 1).
Proof.
  intros D Hn. split.
  - intros. apply phi3_nodal; assumption.
  - intros. apply phi3_sum; assumption.
Qed.

Lemma c_approx_node order Z w0 e :
  constructed order Z w0 e -> let n := (order + 1)%nat in
  forall c C i j k, (i < n)%nat -> (j < n)%nat -> (k < n)%nat ->
  exists C', le_eval_approx e c (Z i) (Z j) (Z k) C = Ok (c (i + j * n + k * n * n)%nat, C').
Proof.
  intros K n c C i j k Hi Hj Hk.
  destruct (c_approx order Z w0 e K c (Z i) (Z j) (Z k) C) as (C' & E).
  1-3: left; eexists; split; [|reflexivity]; assumption.
  exists C'. rewrite E. f_equal. f_equal. apply field3_node; try assumption.
  apply separated_distinct. apply K.
Qed.

Lemma INR_diff i j : (i <> j)%nat -> 1 <= Rabs (INR i - INR j).
Proof.
  intros Ne. destruct (Nat.lt_total i j) as [L|[L|L]]; [|contradiction|].
  - rewrite Rabs_left1; assert (INR (S i) <= INR j) by (apply le_INR; lia); rewrite S_INR in *; lra.
  - rewrite Rabs_pos_eq; assert (INR (S j) <= INR i) by (apply le_INR; lia); rewrite S_INR in *; lra.
Qed.

Lemma sep_INR n : separated n INR.
Proof. intros i j _ _ Ne. generalize (INR_diff i j Ne) tol_small. lra. Qed.

Lemma clean_3 : clean 3 INR 3.
Proof.
  right. intros i Hi. replace 3 with (INR 3) by (simpl; lra).
  generalize (INR_diff i 3 ltac:(lia)) tol_small. lra.
Qed.

Lemma poly_sq : poly_lt 3 (fun x => x * (1 * x + 0)).
Proof.
  apply poly_mulX. apply (poly_ext 2 (fun x => (1 * x + 0) * 1)); [intros; ring|].
  apply poly_mul_lin. apply poly_const. lia.
Qed.

(** p(x) = x^2 on vertices 0,1,2, at X = 3: p''' = 0 but the code returns 11 *)
Lemma der3_wrong : exists Nv Z w X c r c2,
  separated Nv Z /\ compute_barycentric_weights Nv Z (fun _ => 0) = Ok w /\ clean Nv Z X /\
  eval_der_interp Nv 3 (find_coincident_vertex Nv Z X) Z w X (fun i => Ok (c i)) = Ok (r, c2) /\
  ~ is_der3 (interp Nv Z c) X r.
Proof.
  destruct (weights_ok_spec 3 INR (fun _ => 0) (separated_distinct _ _ (sep_INR 3))) as (w & Ew & _).
  set (c := fun i => INR i * (1 * INR i + 0)).
  destruct (der3_found 3 INR (fun _ => 0) w 3 ltac:(reflexivity) (sep_INR 3) Ew c ltac:(lia)) as (d2 & d3 & c2 & H2 & H3 & E).
  { intros i Hi. replace 3 with (INR 3) by (simpl; lra). generalize (INR_diff i 3 ltac:(lia)) tol_small. lra. }
  exists 3%nat, INR, w, 3, c. eexists. exists c2.
  split; [apply sep_INR|]. split; [exact Ew|]. split; [apply clean_3|]. split; [exact E|].
  assert (I : forall x, x * (1 * x + 0) = interp 3 INR c x).
  { intros x. symmetry. apply (interp_repro 3 INR (fun x => x * (1 * x + 0)) (separated_distinct _ _ (sep_INR 3)) poly_sq). }
  assert (D1 : forall t, derivable_pt_lim (interp 3 INR c) t (2 * t)).
  { intros t. apply (der_ext _ _ _ _ I). der_tac. ring. }
  assert (U1 : forall f', (forall t, derivable_pt_lim (interp 3 INR c) t (f' t)) -> forall t, 2 * t = f' t).
  { intros f' H t. apply (der_unique _ _ _ _ (D1 t) (H t)). }
  assert (V2 : d2 = 2).
  { destruct H2 as (f' & Hf' & Hd2). assert (Q := U1 f' Hf').
    apply (der_unique f' 3); [exact Hd2|]. apply (der_ext _ _ _ _ Q). der_tac. ring. }
  assert (V3 : forall d, is_der3 (interp 3 INR c) 3 d -> d = 0).
  { intros d (f' & f'' & Hf' & Hf'' & Hd). assert (Q := U1 f' Hf').
    assert (Q2 : forall t, 2 = f'' t).
    { intros t. apply (der_unique f' t); [|apply Hf'']. apply (der_ext _ _ _ _ Q). der_tac. ring. }
    apply (der_unique f'' 3); [exact Hd|]. apply (der_ext _ _ _ _ Q2). apply der_const. }
  intros Hr. apply V3 in Hr. apply V3 in H3. subst. simpl in Hr.
  assert (/ (3 - 0) = /3) by (f_equal; lra). assert (/ (3 - 1) = /2) by (f_equal; lra).
  assert (/ (3 - (1+1)) = 1) by (replace (3 - (1+1)) with 1 by lra; apply Rinv_1). lra.
Qed.

Lemma ex_nonvacuous :
  separated 3 INR /\ distinct 3 INR /\ clean 3 INR 1 /\ clean 3 INR 3 /\
  (exists w, compute_barycentric_weights 3 INR (fun _ => 0) = Ok w) /\
  (exists e, new_lagrange_element 2 INR (fun _ => 0) = Ok e) /\
  (N.of_nat ((2 + 1) * (2 + 1) * (2 + 1)) <= 2 ^ 64)%N /\ poly_lt 3 (fun x => x * (1 * x + 0)).
Proof.
  split; [apply sep_INR|]. split; [apply separated_distinct, sep_INR|].
  split; [left; exists 1%nat; split; [lia|reflexivity]|]. split; [apply clean_3|].
  split. { destruct (weights_ok_spec 3 INR (fun _ => 0) (separated_distinct _ _ (sep_INR 3))) as (w & Ew & _). eauto. }
  split; [apply constructor_ok; [discriminate|apply sep_INR]|]. split; [discriminate|apply poly_sq].
Qed.
