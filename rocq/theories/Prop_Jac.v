(** Theorems about the small-matrix kernels (C21, C22) and the geometry Jacobians and volumes (C51, C55). *)
From Coq Require Import Reals List Arith Lra Lia.
Import ListNotations.
Require Import Verif.Base Verif.RBase Verif.RSum Verif.Spec_Mat Verif.Det Verif.Model_Jac Verif.Proof_Jac.
Open Scope R_scope.

(** mat_inverse: the two-sided inverse, or a division by zero exactly when the determinant is 0 *)
Theorem C21_mat_inverse : forall m,
  (det3 m <> 0 -> exists B, mat_inverse m = Ok B /\ is_inverse 3 m B) /\ (det3 m = 0 -> mat_inverse m = Err DivZero).
Proof. intros m. split; [apply mat_inverse_ok|apply mat_inverse_err]. Qed.
Print Assumptions C21_mat_inverse.
Theorem C21_inverse_2d : forall J,
  (det2 J <> 0 -> exists B, jacobian_inverse_2d J = Ok B /\ is_inverse 2 J B) /\ (det2 J = 0 -> jacobian_inverse_2d J = Err DivZero).
Proof. intros m. split; [apply inverse_2d_ok|apply inverse_2d_err]. Qed.
Print Assumptions C21_inverse_2d.
(** jacobian_inverse_4d: the inverse if given the determinant, and only then *)
Theorem C21_inverse_4d : forall J,
  (det 4 J <> 0 -> exists B, jacobian_inverse_4d J (det 4 J) = Ok B /\ is_inverse 4 J B) /\
  (forall d B, jacobian_inverse_4d J d = Ok B -> is_inverse 4 J B -> d = det 4 J).
Proof. intros J. split; [apply inverse_4d_ok|apply inverse_4d_given]. Qed.
Print Assumptions C21_inverse_4d.
(** the assembled matrix is sum_v (dphi_v/dxi_i) x_j(v), whatever J_matrix held, and det_J its determinant *)
Theorem C21_jacobian_2d : forall nv X P J0 J d, jacobian_2d nv X P J0 = (J, d) ->
  (forall i j, (i < 2)%nat -> (j < 2)%nat -> J i j = rsum nv (fun v => X v j * P v i)) /\ d = det2 J.
Proof. intros nv X P J0 J d H. assert (S := jacobian_2d_spec nv X P J0). rewrite H in S. exact S. Qed.
Print Assumptions C21_jacobian_2d.
Theorem C21_jacobian_4d : forall nv X P J0 J d, jacobian_4d nv 4 X P J0 = (J, d) ->
  (forall i j, (i < 4)%nat -> (j < 4)%nat -> J i j = rsum nv (fun v => X v j * P v i)) /\ d = det 4 J.
Proof. intros nv X P J0 J d H. assert (S := jacobian_4d_spec nv X P J0). rewrite H in S. exact S. Qed.
Print Assumptions C21_jacobian_4d.

(** jacobian_3d assembles the right matrix; its det_J is the determinant exactly on this set *)
Theorem C22_jacobian_3d_det : forall nv X P J0 J d, jacobian_3d nv X P J0 = (J, d) ->
  (forall i j, (i < 3)%nat -> (j < 3)%nat -> J i j = rsum nv (fun v => X v j * P v i)) /\
  (d = det3 J <-> J 2%nat 1%nat * J 1%nat 2%nat * (1 - J 0%nat 0%nat) + J 2%nat 0%nat * J 1%nat 2%nat * (1 + J 0%nat 1%nat)
                  + J 2%nat 0%nat * J 1%nat 1%nat * (1 - J 0%nat 2%nat) = 0).
Proof.
  intros nv X P J0 J d H. assert (S := jacobian_3d_spec nv X P J0). rewrite H in S. destruct S as (S1 & S2). split; [exact S1|]. rewrite S2. split; lra.
Qed.
Print Assumptions C22_jacobian_3d_det.
(** the same scaled map x = 2 xi with one shear: the determinant is 4, det_J is reported as 3 *)
Theorem C22_jacobian_3d_refuted : exists X P J d,
  jacobian_3d 3 X P (fun _ _ => 0) = (J, d) /\ det3 J = 4 /\ d = 3.
Proof.
  exists (rows [[2;0;0];[0;1;0];[1;0;2]]), ident.
  eexists. eexists. split; [reflexivity|].
  assert (E : forall i j, (i < 3)%nat -> (j < 3)%nat -> jac_fill 3 3 (rows [[2;0;0];[0;1;0];[1;0;2]]) ident (fun _ _ => 0) i j = rows [[2;0;0];[0;1;0];[1;0;2]] i j).
  { intros i j Hi Hj. rewrite jac_fill_spec by assumption.
    destruct i as [|[|[|i]]]; try lia; destruct j as [|[|[|j]]]; try lia; unfold rows, ident; cbn [rsum nth Nat.eqb]; ring. }
  unfold det3. rewrite !E by lia. unfold rows. cbn [nth]. split; lra.
Qed.
Print Assumptions C22_jacobian_3d_refuted.
(** jacobian_inverse_3d divides by zero on a unit shear, whose determinant is 1 ... *)
Theorem C22_inverse_3d_divzero : let J := rows [[1;1;0];[0;1;0];[0;0;1]] in
  det3 J = 1 /\ jacobian_inverse_3d J = Err DivZero.
Proof.
  cbv zeta. split; [unfold det3, rows; cbn [nth]; ring|]. unfold jacobian_inverse_3d, rows. cbn [nth]. cbv zeta.
  replace (1 * (1 * 1 - 0 * 0) + 1 * (0 * 0 - 1 * 1) + 0 * (1 * 0 - 0 * 1)) with 0 by ring. rewrite rdiv_zero. reflexivity.
Qed.
Print Assumptions C22_inverse_3d_divzero.
(** ... and returns something else than the inverse on the transposed shear *)
Theorem C22_inverse_3d_refuted : let J := rows [[1;0;0];[1;1;0];[0;0;1]] in
  det3 J = 1 /\ exists B, jacobian_inverse_3d J = Ok B /\ ~ is_inverse 3 J B.
Proof.
  cbv zeta. split; [unfold det3, rows; cbn [nth]; ring|]. unfold jacobian_inverse_3d, rows. cbn [nth]. cbv zeta.
  rewrite !rdiv_ok by lra. cbn [bind]. eexists. split; [reflexivity|]. intros (H & _).
  assert (E := H 0%nat 1%nat ltac:(lia) ltac:(lia)). unfold mmul, ident in E. cbn [rsum nth Nat.eqb] in E. cbn in E. lra.
Qed.
Print Assumptions C22_inverse_3d_refuted.
(** for symmetric matrices it is the inverse exactly when J10 * (J11 - J21) = 0 (in particular for diagonal ones) *)
Theorem C22_inverse_3d_symmetric : forall J, (forall i j, J i j = J j i) -> det3 J <> 0 ->
  exists B, jacobian_inverse_3d J = Ok B /\ (is_inverse 3 J B <-> J 1%nat 0%nat * (J 1%nat 1%nat - J 2%nat 1%nat) = 0).
Proof.
  intros J S D. unfold jacobian_inverse_3d. cbv zeta.
  match goal with |- context [rdiv _ ?x] => set (d := x) end.
  assert (Ed : d = det3 J) by (unfold d, det3; rewrite (S 1%nat 0%nat), (S 2%nat 0%nat), (S 2%nat 1%nat); ring).
  assert (Nd : d <> 0) by (rewrite Ed; exact D).
  rewrite !rdiv_ok by exact Nd. cbn [bind]. eexists. split; [reflexivity|]. split.
  - intros (H & _).
    assert (E0 := H 0%nat 2%nat ltac:(lia) ltac:(lia)). assert (E1 := H 1%nat 2%nat ltac:(lia) ltac:(lia)). assert (E2 := H 2%nat 2%nat ltac:(lia) ltac:(lia)).
    unfold mmul, ident, rows in E0, E1, E2. cbn [rsum nth Nat.eqb] in E0, E1, E2.
    (* column 2 of J * B: J times (A_13, A_23, A_33)/d *)
    set (x := J 1%nat 0%nat * (J 1%nat 1%nat - J 2%nat 1%nat)).
    assert (F0 : J 0%nat 0%nat * x = 0).
    { apply (Rmult_eq_reg_r (/ d)); [|apply Rinv_neq_0_compat; exact Nd]. rewrite Rmult_0_l. rewrite <- E0. unfold x. rewrite (S 1%nat 0%nat), (S 2%nat 0%nat), (S 2%nat 1%nat). field. exact Nd. }
    assert (F1 : J 1%nat 0%nat * x = 0).
    { apply (Rmult_eq_reg_r (/ d)); [|apply Rinv_neq_0_compat; exact Nd]. rewrite Rmult_0_l. rewrite <- E1. unfold x. rewrite (S 1%nat 0%nat), (S 2%nat 0%nat), (S 2%nat 1%nat). field. exact Nd. }
    assert (F2 : J 2%nat 0%nat * x = 0).
    { apply (Rmult_eq_reg_r (/ d)); [|apply Rinv_neq_0_compat; exact Nd]. rewrite Rmult_0_l.
      apply (Rplus_eq_reg_r 1). rewrite Rplus_0_l. etransitivity; [|exact E2]. transitivity (J 2%nat 0%nat * x * / d + d * / d); [field; exact Nd|].
      rewrite Ed at 2. unfold x, det3. rewrite (S 1%nat 0%nat), (S 2%nat 0%nat), (S 2%nat 1%nat). field. exact Nd. }
    destruct (Req_dec x 0) as [Z|Z]; [exact Z|]. exfalso. apply D.
    assert (Z0 : J 0%nat 0%nat = 0) by (apply Rmult_integral in F0; destruct F0; [assumption|contradiction]).
    assert (Z1 : J 1%nat 0%nat = 0) by (apply Rmult_integral in F1; destruct F1; [assumption|contradiction]).
    assert (Z2 : J 2%nat 0%nat = 0) by (apply Rmult_integral in F2; destruct F2; [assumption|contradiction]).
    unfold det3. rewrite Z0, Z1, Z2. ring.
  - intros E. assert (A : J 1%nat 0%nat * J 1%nat 1%nat = J 1%nat 0%nat * J 2%nat 1%nat) by lra.
    split; intros i j Hi Hj; destruct i as [|[|[|i]]]; try lia; destruct j as [|[|[|j]]]; try lia; unfold mmul, rows, ident; cbn [rsum nth Nat.eqb];
      rewrite ?A;
      match goal with
      | |- _ = 1 => transitivity (det3 J / d); [unfold det3|rewrite Ed; field; exact D]
      | |- _ = 0 => idtac
      end; rewrite ?(S 1%nat 0%nat), ?(S 2%nat 0%nat), ?(S 2%nat 1%nat); field; exact Nd.
Qed.
Print Assumptions C22_inverse_3d_symmetric.

(** C51: every point of every element gets J_ij = sum_v dphi_v/dxi_j x_i(v), its determinant and (if that is
    not 0) its inverse; no other point is touched.  [gid] is any injective point numbering. *)
Theorem C51_point_jacobians : forall ne np nb gid vmap N X grad T0,
  (forall e l e' l', (e < ne)%nat -> (e' < ne)%nat -> (l < np)%nat -> (l' < np)%nat -> gid e l = gid e' l' -> e = e' /\ l = l') ->
  let T := get_pt_jacobian ne np nb gid vmap N X grad T0 in
  (forall e l, (e < ne)%nat -> (l < np)%nat ->
    (forall i j, (i < 3)%nat -> (j < 3)%nat -> t_jac T (gid e l) i j = rsum nb (fun v => grad l v j * X (N e (vmap v)) i)) /\
    t_det T (gid e l) = det3 (t_jac T (gid e l)) /\
    (det3 (t_jac T (gid e l)) <> 0 -> exists B, t_inv T (gid e l) = Ok B /\ is_inverse 3 (t_jac T (gid e l)) B)) /\
  (forall g, (forall e l, (e < ne)%nat -> (l < np)%nat -> gid e l <> g) ->
    t_jac T g = t_jac T0 g /\ t_det T g = t_det T0 g /\ t_inv T g = t_inv T0 g).
Proof.
  intros ne np nb gid vmap N X grad T0 inj T. destruct (pt_all ne np nb gid vmap N X grad T0 inj) as (P & Q). fold T in P, Q. split.
  - intros e l He Hl. destruct (P e l ltac:(unfold done; lia)) as (P1 & P2 & P3). split; [exact P1|]. split; [exact P2|]. rewrite P3. apply mat_inverse_ok.
  - intros g Hg. apply Q. intros e l D. apply Hg; unfold done in D; lia.
Qed.
Print Assumptions C51_point_jacobians.
(** the numbering used for Gauss and Gauss-patch points is injective *)
Theorem C51_numbering_injective : forall n e l e' l', (l < n)%nat -> (l' < n)%nat -> pt_in_elem n e l = pt_in_elem n e' l' -> e = e' /\ l = l'.
Proof. exact pt_in_elem_inj. Qed.
Print Assumptions C51_numbering_injective.
Example C51_nonvacuous : forall e l e' l', (e < 7)%nat -> (e' < 7)%nat -> (l < 27)%nat -> (l' < 27)%nat ->
  pt_in_elem 27 e l = pt_in_elem 27 e' l' -> e = e' /\ l = l'.
Proof. intros e l e' l' _ _ H1 H2. apply pt_in_elem_inj; assumption. Qed.

(** C55: get_vol_jacobi *)
Theorem C55_vol_jacobi : forall ne nc cie detj gic wt NC X T0,
  (forall e l e' l', (e < ne)%nat -> (e' < ne)%nat -> (l < nc)%nat -> (l' < nc)%nat -> cie e l = cie e' l' -> e = e' /\ l = l') ->
  let T := get_vol_jacobi ne nc cie detj gic wt NC X T0 in
  forall e, (e < ne)%nat ->
  (forall lid, (lid < nc)%nat ->
    v_cell T (cie e lid) = rsum 8 (fun l => detj (gic (cie e lid) l) * wt lid l) /\
    (forall d, (d < 3)%nat -> v_cent T (cie e lid) d = rsum 8 (fun l => X (NC (cie e lid) l) d) / 8)) /\
  v_elem T e = rsum nc (fun lid => v_cell T (cie e lid)).
Proof.
  intros ne nc cie detj gic wt NC X T0 inj T e He. destruct (vol_all ne nc cie detj gic wt NC X T0 inj) as (P & Q). fold T in P, Q.
  split; [intros lid Hl; exact (P e lid He Hl)|]. rewrite (Q e He). apply rsum_ext. intros lid Hl. symmetry. apply (P e lid He Hl).
Qed.
Print Assumptions C55_vol_jacobi.
(** on an element whose Jacobian determinant is constant, with corner weights that add up to the reference
    volume 8, the element volume is 8 times that determinant *)
Theorem C55_affine_volume : forall ne nc cie detj gic wt NC X T0 e D,
  (forall e l e' l', (e < ne)%nat -> (e' < ne)%nat -> (l < nc)%nat -> (l' < nc)%nat -> cie e l = cie e' l' -> e = e' /\ l = l') ->
  (e < ne)%nat -> (forall lid l, (lid < nc)%nat -> (l < 8)%nat -> detj (gic (cie e lid) l) = D) ->
  rsum nc (fun lid => rsum 8 (wt lid)) = 8 ->
  v_elem (get_vol_jacobi ne nc cie detj gic wt NC X T0) e = 8 * D.
Proof.
  intros ne nc cie detj gic wt NC X T0 e D inj He HD HW. destruct (vol_all ne nc cie detj gic wt NC X T0 inj) as (_ & Q).
  rewrite (Q e He). rewrite <- HW, Rmult_comm, <- rsum_scal_l. apply rsum_ext. intros lid Hl. unfold cvol. rewrite <- rsum_scal_l.
  apply rsum_ext. intros l Hll. rewrite HD by assumption. reflexivity.
Qed.
Print Assumptions C55_affine_volume.
Example C55_nonvacuous :
  (forall e l e' l', (e < 4)%nat -> (e' < 4)%nat -> (l < 8)%nat -> (l' < 8)%nat -> pt_in_elem 8 e l = pt_in_elem 8 e' l' -> e = e' /\ l = l') /\
  rsum 8 (fun _ => rsum 8 (fun _ => 1 / 8)) = 8.
Proof. split; [intros e l e' l' _ _ H1 H2; apply pt_in_elem_inj; assumption|]. cbn [rsum]. lra. Qed.

Example C21_nonvacuous : det3 (rows [[2;1;0];[0;3;1];[1;0;1]]) <> 0 /\ det2 (rows [[2;1];[1;3]]) <> 0 /\
  det 4 (rows [[2;1;0;0];[0;3;1;0];[0;0;1;1];[1;0;0;1]]) <> 0.
Proof.
  split; [unfold det3, rows; cbn [nth]; lra|]. split; [unfold det2, rows; cbn [nth]; lra|].
  rewrite det4_formula. unfold jacobian_4d, jac_fill, rows. cbn [fold_up snd nth]. lra.
Qed.
Example C22_nonvacuous : (forall i j, rows [[2;0;0];[0;3;1];[0;1;1]] i j = rows [[2;0;0];[0;3;1];[0;1;1]] j i) /\ det3 (rows [[2;0;0];[0;3;1];[0;1;1]]) <> 0.
Proof.
  split.
  - intros i j. unfold rows. destruct i as [|[|[|i]]], j as [|[|[|j]]]; cbn [nth]; try reflexivity; try (destruct i; reflexivity); try (destruct j; reflexivity).
    destruct i, j; reflexivity.
  - unfold det3, rows; cbn [nth]. lra.
Qed.
