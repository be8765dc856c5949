(** Property theorem C79 (geometry/geometry.cpp, elements/elements.cpp): determinants, inverses, Jacobians and volumes in
    floating-point arithmetic. *)
From Coq Require Import Reals List Arith ZArith Lra Lia.
Import ListNotations.
From Flocq Require Import Core.
Require Import Verif.Base Verif.RBase Verif.RSum Verif.Spec_Mat Verif.Det Verif.Model_Geom Verif.Model_Jac Verif.Proof_Jac Verif.Model_Vol Verif.Spec_Vol
  Verif.Spec_Float Verif.Float_Base Verif.Model_FloatLagrange Verif.Spec_FloatGeom Verif.Model_FloatGeom Verif.Proof_FloatGeom Verif.Proof_FloatGeom2 Verif.Proof_FloatGeom3
  Verif.Proof_FloatGeom4 Verif.Proof_FloatGeom5 Verif.Ex_FloatGeom Verif.Proof_FloatRefine Verif.Proof_FloatRefine5.
Open Scope R_scope.

(** C79: without rounding the functions are those of C21, C41, C51 and C55 *)
Theorem C79_exact : let id := fun x : R => x in
  (forall m, det_cofactorf id m = det_cofactor m) /\ (forall m, mat_inversef id m = mat_inverse m) /\
  (forall nv X P J0, jacobian_2df id nv X P J0 = jacobian_2d nv X P J0) /\ (forall nv n X P J0, jacobian_4df id nv n X P J0 = jacobian_4d nv n X P J0) /\
  (forall J, jacobian_inverse_2df id J = jacobian_inverse_2d J) /\
  (forall ne np nb gid vmap N X grad T0, get_pt_jacobianf id ne np nb gid vmap N X grad T0 = get_pt_jacobian ne np nb gid vmap N X grad T0) /\
  (forall ne nc cie detj gic wt NC X T0, get_vol_jacobif id ne nc cie detj gic wt NC X T0 = get_vol_jacobi ne nc cie detj gic wt NC X T0) /\
  (forall X N cell x0 y0 z0, vol_hex_cellf id X N cell x0 y0 z0 = vol_hex_cell X N cell x0 y0 z0).
Proof. cbv zeta. repeat split. Qed.
Print Assumptions C79_exact.

(** C79, the 3x3 determinant: the error is at most gamma 5 times the sum of the absolute values of the six products; a computed
    determinant (or an exact one) larger than that has the right sign *)
Theorem C79_determinant : forall u rnd m, 0 <= u -> 5 * u < 1 -> rounds u rnd -> let b := gamma u 5 * perm 3 m in
  Rabs (det_cofactorf rnd m - det3 m) <= b /\
  (b < det_cofactorf rnd m -> 0 < det3 m) /\ (det_cofactorf rnd m < - b -> det3 m < 0) /\
  (b < det3 m -> 0 < det_cofactorf rnd m) /\ (det3 m < - b -> det_cofactorf rnd m < 0).
Proof.
  intros u rnd m H0 H5 Hr b. assert (Hu : 0 <= u < 1) by lra. assert (E := det_err u Hu rnd Hr m H5). fold b in E. split; [exact E|].
  destruct (sign_keep _ _ _ E) as (A & B & C & D). tauto.
Qed.
Print Assumptions C79_determinant.

(** C79: otherwise it can have the wrong sign: in double precision the determinant of this matrix is -2^-61 and computed as 2^-61;
    and an invertible matrix can be rejected with a division by zero *)
Theorem C79_wrong_sign : det3 m_sign = - bpow radix2 (-61) /\ det_cofactorf binary64 m_sign = bpow radix2 (-61) /\
  det3 m_sing < 0 /\ mat_inversef binary64 m_sing = Err DivZero.
Proof.
  split; [exact m_sign_det|]. split; [exact m_sign_comp|]. split; [exact m_sing_det|]. apply inversef_zero. exact m_sing_comp.
Qed.
Print Assumptions C79_wrong_sign.

(** C79, mat_inverse: with e = gamma 5 perm |m| / |det m| < 1 there is no division by zero, and every entry differs from the
    one of the exact inverse by at most (gamma 4 + e)/(1 - e) times the absolute cofactor over |det m|.
    It divides by zero exactly when the computed determinant is 0. *)
Theorem C79_inverse : forall u rnd m, 0 <= u -> 5 * u < 1 -> rounds u rnd ->
  (mat_inversef rnd m = Err DivZero <-> det_cofactorf rnd m = 0) /\
  forall C, det3 m <> 0 -> is_inverse 3 m C -> let e := gamma u 5 * (perm 3 m / Rabs (det3 m)) in e < 1 ->
    exists B, mat_inversef rnd m = Ok B /\ forall i j, (i < 3)%nat -> (j < 3)%nat ->
      Rabs (B i j - C i j) <= (gamma u 4 + e) / (1 - e) * (perm 2 (without m j i) / Rabs (det3 m)).
Proof.
  intros u rnd m H0 H5 Hr. assert (Hu : 0 <= u < 1) by lra. split; [apply inversef_zero|]. intros C D I. cbv zeta. intros He.
  exact (inverse_err u Hu rnd Hr m C D H5 I He).
Qed.
Print Assumptions C79_inverse.

(** C79, two dimensions: the Jacobian matrix, its determinant and jacobian_inverse_2d; the computed determinant never has the
    wrong sign when the rounding keeps the order *)
Theorem C79_two_dimensions : forall u rnd, 0 <= u -> 2 * u < 1 -> rounds u rnd ->
  (forall nv X P J0 J d, jacobian_2df rnd nv X P J0 = (J, d) -> INR (nv + 1) * u < 1 ->
    (forall i j, (i < 2)%nat -> (j < 2)%nat -> Rabs (J i j - rsum nv (fun v => X v j * P v i)) <= gamma u (nv + 1) * rsum nv (fun v => Rabs (X v j) * Rabs (P v i))) /\
    Rabs (d - det2 J) <= gamma u 2 * perm 2 J /\
    (monotone rnd -> (0 <= det2 J -> 0 <= d) /\ (det2 J <= 0 -> d <= 0))) /\
  (forall J C, det2 J <> 0 -> is_inverse 2 J C -> let e := gamma u 2 * (perm 2 J / Rabs (det2 J)) in e < 1 ->
    exists B, jacobian_inverse_2df rnd J = Ok B /\ forall i j, (i < 2)%nat -> (j < 2)%nat ->
      Rabs (B i j - C i j) <= (gamma u 1 + e) / (1 - e) * (Rabs (without J j i 0%nat 0%nat) / Rabs (det2 J))).
Proof.
  intros u rnd H0 H2 Hr. assert (Hu : 0 <= u < 1) by lra. split.
  - intros nv X P J0 J d H Hn. unfold jacobian_2df in H. injection H as EJ H. split; [|split].
    + intros i j Hi Hj. rewrite <- EJ, jac_fillf_spec by assumption. apply (ap_err u Hu); [exact Hn|]. apply (dot_ap u Hu rnd Hr).
    + rewrite EJ in H. rewrite <- H. apply (det2_err u Hu rnd Hr); exact H2.
    + rewrite EJ in H. rewrite <- H. apply (det2_sign u Hu rnd Hr).
  - intros J C D I. cbv zeta. intros He. exact (inverse2_err u Hu rnd Hr J C D H2 I He).
Qed.
Print Assumptions C79_two_dimensions.

(** C79, four dimensions: the Jacobian matrix and its determinant *)
Theorem C79_four_dimensions : forall u rnd nv X P J0 J d, 0 <= u -> 26 * u < 1 -> INR (nv + 1) * u < 1 -> rounds u rnd ->
  jacobian_4df rnd nv 4 X P J0 = (J, d) ->
  (forall i j, (i < 4)%nat -> (j < 4)%nat -> Rabs (J i j - rsum nv (fun v => X v j * P v i)) <= gamma u (nv + 1) * rsum nv (fun v => Rabs (X v j) * Rabs (P v i))) /\
  Rabs (d - det 4 J) <= gamma u 26 * perm 4 J.
Proof.
  intros u rnd nv X P J0 J d H0 H26 Hn Hr H. assert (Hu : 0 <= u < 1) by lra. split.
  - intros i j Hi Hj. unfold jacobian_4df in H. injection H as EJ _. rewrite <- EJ, jac_fillf_spec by assumption. apply (ap_err u Hu); [exact Hn|]. apply (dot_ap u Hu rnd Hr).
  - exact (det4_err u Hu rnd Hr nv X P J0 J d H H26).
Qed.
Print Assumptions C79_four_dimensions.

(** C79, get_gauss_pt_jacobian, get_gauss_patch_pt_jacobian, get_gauss_cell_pt_jacobian: for every point of every element the
    stored matrix differs from sum_v x_i(v) dphi_v/dxi_j by at most gamma (nb+1) times the sum A_ij of the absolute values, the
    stored determinant from the determinant of that sum by at most b = gamma (3 nb + 8) times the expansion of det A without
    signs; it has the right sign if the exact one is larger than b, and then there is a stored inverse;
    no other point is touched *)
Theorem C79_points : forall u rnd ne np nb gid vmap N X grad T0, 0 <= u < 1 -> INR (3 * nb + 8) * u < 1 -> rounds u rnd ->
  (forall e l e' l', (e < ne)%nat -> (e' < ne)%nat -> (l < np)%nat -> (l' < np)%nat -> gid e l = gid e' l' -> e = e' /\ l = l') ->
  let T := get_pt_jacobianf rnd ne np nb gid vmap N X grad T0 in
  (forall e l, (e < ne)%nat -> (l < np)%nat ->
    let J : mat := fun i j => rsum nb (fun v => grad l v j * X (N e (vmap v)) i) in
    let A : mat := jac_abs nb (grad l) (fun v => X (N e (vmap v))) in
    let b := gamma u (3 * nb + 8) * perm 3 A in
    (forall i j, (i < 3)%nat -> (j < 3)%nat -> Rabs (t_jac T (gid e l) i j - J i j) <= gamma u (nb + 1) * A i j) /\
    Rabs (t_det T (gid e l) - det3 J) <= b /\
    (b < det3 J -> 0 < t_det T (gid e l)) /\ (det3 J < - b -> t_det T (gid e l) < 0) /\
    (b < Rabs (det3 J) -> exists B, t_inv T (gid e l) = Ok B)) /\
  (forall g, (forall e l, (e < ne)%nat -> (l < np)%nat -> gid e l <> g) ->
    t_jac T g = t_jac T0 g /\ t_det T g = t_det T0 g /\ t_inv T g = t_inv T0 g).
Proof.
  intros u rnd ne np nb gid vmap N X grad T0 Hu Hn Hr inj T. destruct (ptf_all rnd ne np nb gid vmap N X grad T0 inj) as (P & Q). fold T in P, Q. split.
  - intros e l He Hl J A b. destruct (P e l ltac:(unfold done; lia)) as (P1 & P2 & P3).
    assert (E : forall i j, (i < 3)%nat -> (j < 3)%nat -> 0 <= A i j /\ ap u (nb + 1) (A i j) (J i j) (t_jac T (gid e l) i j)).
    { intros i j Hi Hj. assert (G : ap u (nb + 1) (A i j) (J i j) (t_jac T (gid e l) i j)) by (rewrite (P1 i j Hi Hj); apply (dot_ap u Hu rnd Hr)).
      split; [exact (ap_a0 u _ _ _ _ G)|exact G]. }
    assert (D : Rabs (t_det T (gid e l) - det3 J) <= b).
    { rewrite P2. unfold b. apply (ap_err u Hu); [exact Hn|]. replace (3 * nb + 8)%nat with (3 * (nb + 1) + 5)%nat by lia. apply (det_ap u Hu rnd Hr). exact E. }
    split; [intros i j Hi Hj; apply (ap_err u Hu); [|apply E; assumption]|].
    { eapply Rle_lt_trans; [|exact Hn]. apply Rmult_le_compat_r; [lra|]. apply le_INR. lia. }
    split; [exact D|]. destruct (sign_keep _ _ _ D) as (S1 & S2 & _). split; [exact S1|]. split; [exact S2|].
    intros Hb. rewrite P3. assert (Nz : det_cofactorf rnd (t_jac T (gid e l)) <> 0).
    { rewrite <- P2. intros Z. rewrite Z in D. replace (0 - det3 J) with (- det3 J) in D by ring. rewrite Rabs_Ropp in D. lra. }
    unfold mat_inversef, rdivf. destruct (Req_EM_T _ 0) as [Z|_]; [contradiction|]. cbn [bind]. eexists. reflexivity.
  - intros g Hg. apply Q. intros e l D. apply Hg; unfold done in D; lia.
Qed.
Print Assumptions C79_points.

(** C79, get_vol_jacobi: cell volumes, element volumes and cell centres; with determinants and weights that are not negative
    the volumes have small relative errors *)
Theorem C79_vol_jacobi : forall u rnd ne nc cie detj gic wt NC X T0, 0 <= u < 1 -> INR (nc + 10) * u < 1 -> rounds u rnd ->
  (forall e l e' l', (e < ne)%nat -> (e' < ne)%nat -> (l < nc)%nat -> (l' < nc)%nat -> cie e l = cie e' l' -> e = e' /\ l = l') ->
  let T := get_vol_jacobif rnd ne nc cie detj gic wt NC X T0 in
  forall e, (e < ne)%nat ->
  let V := fun lid => rsum 8 (fun l => detj (gic (cie e lid) l) * wt lid l) in
  let A := fun lid => rsum 8 (fun l => Rabs (detj (gic (cie e lid) l)) * Rabs (wt lid l)) in
  (forall lid, (lid < nc)%nat ->
    Rabs (v_cell T (cie e lid) - V lid) <= gamma u 9 * A lid /\
    (forall d, (d < 3)%nat -> Rabs (v_cent T (cie e lid) d - rsum 8 (fun l => X (NC (cie e lid) l) d) / 8)
       <= gamma u 10 * (rsum 8 (fun l => Rabs (X (NC (cie e lid) l) d)) / 8))) /\
  Rabs (v_elem T e - rsum nc V) <= gamma u (nc + 9) * rsum nc A /\
  ((forall lid l, (lid < nc)%nat -> (l < 8)%nat -> 0 <= detj (gic (cie e lid) l) /\ 0 <= wt lid l) ->
    (forall lid, (lid < nc)%nat -> Rabs (v_cell T (cie e lid) - V lid) <= gamma u 9 * V lid) /\
    Rabs (v_elem T e - rsum nc V) <= gamma u (nc + 9) * rsum nc V).
Proof.
  intros u rnd ne nc cie detj gic wt NC X T0 Hu Hn Hr inj T e He V A. destruct (volf_all rnd ne nc cie detj gic wt NC X T0 inj) as (P & Q). fold T in P, Q.
  assert (K : forall k, (k <= nc + 10)%nat -> INR k * u < 1).
  { intros k Hk. eapply Rle_lt_trans; [|exact Hn]. apply Rmult_le_compat_r; [lra|]. apply le_INR. exact Hk. }
  assert (C : forall lid, (lid < nc)%nat -> ap u 9 (A lid) (V lid) (v_cell T (cie e lid))).
  { intros lid Hl. destruct (P e lid He Hl) as (-> & _). unfold cvolf. apply (dot_ap u Hu rnd Hr 8). }
  assert (E : ap u (nc + 9) (rsum nc A) (rsum nc V) (v_elem T e)).
  { rewrite (Q e He). apply (entry_ap u Hu rnd Hr). intros lid Hl. destruct (P e lid He Hl) as (<- & _). apply C. exact Hl. }
  assert (C' : forall lid, (lid < nc)%nat -> Rabs (v_cell T (cie e lid) - V lid) <= gamma u 9 * A lid) by (intros lid Hl; apply (ap_err u Hu); [apply K; lia|apply C; exact Hl]).
  assert (E' : Rabs (v_elem T e - rsum nc V) <= gamma u (nc + 9) * rsum nc A) by (apply (ap_err u Hu); [apply K; lia|exact E]).
  split; [|split].
  - intros lid Hl. split; [apply C'; exact Hl|]. intros d Hd. destruct (P e lid He Hl) as (_ & H). rewrite (H d Hd).
    apply (ap_err u Hu); [apply K; lia|]. unfold Rdiv. replace (/ 8) with 0.125 by lra. 
    apply (ap_mul u Hu rnd Hr 8 1).
    + apply (entry_ap u Hu rnd Hr 8 0). intros; apply ap_var.
    + apply (ap_rnd u Hu rnd Hr 0). eapply (ap_a u Hu); [|apply ap_var]. rewrite Rabs_pos_eq; lra.
  - exact E'.
  - intros Hp. assert (AV : forall lid, (lid < nc)%nat -> A lid = V lid).
    { intros lid Hl. unfold A, V. apply rsum_ext. intros l Hll. destruct (Hp lid l Hl Hll) as (H1 & H2). rewrite !Rabs_pos_eq by assumption. reflexivity. }
    split; [intros lid Hl; assert (X1 := C' lid Hl); rewrite (AV lid Hl) in X1; exact X1|]. rewrite (rsum_ext nc A V AV) in E'. exact E'.
Qed.
Print Assumptions C79_vol_jacobi.

(** C79, get_vol_hex, with all coordinates of the cell's vertices at most M: the stored volume differs from the volume of the
    trilinear hexahedron by at most 12 gamma 19 M^3; a hexahedron larger than that gets a positive volume *)
Theorem C79_vol_hex : forall u rnd X N cell x0 y0 z0 M, 0 <= u -> 19 * u < 1 -> rounds u rnd ->
  (forall l d, (l < 8)%nat -> (d < 3)%nat -> Rabs (X (N cell l) d) <= M) ->
  let V := hex_volume (fun l d => X (N cell l) d) in
  Rabs (fst (vol_hex_cellf rnd X N cell x0 y0 z0) - V) <= gamma u 19 * (12 * M ^ 3) /\
  (gamma u 19 * (12 * M ^ 3) < V -> 0 < fst (vol_hex_cellf rnd X N cell x0 y0 z0)).
Proof.
  intros u rnd X N cell x0 y0 z0 M H0 H19 Hr HM V. assert (Hu : 0 <= u < 1) by lra.
  assert (E : Rabs (fst (vol_hex_cellf rnd X N cell x0 y0 z0) - V) <= gamma u 19 * (12 * M ^ 3)).
  { apply (ap_err u Hu 19); [cbn [INR]; lra|]. apply (vol_hex_ap u Hu rnd Hr). exact HM. }
  split; [exact E|]. apply (sign_keep _ _ _ E).
Qed.
Print Assumptions C79_vol_hex.

(** C79: it depends on where the cell is: in double precision a cube of side 1/128 with a corner next to
    (2000000.1, 2000000.1, 2000000.1) gets a negative volume *)
Theorem C79_negative_volume : Rabs (c_lo - 20000001 / 10) <= / 10 ^ 9 /\ c_hi - c_lo = / 128 /\
  hex_volume (fun l d => cube_X (cube_N 0 l) d) = / 128 ^ 3 /\
  fst (vol_hex_cellf binary64 cube_X cube_N 0 (fun _ => 0) (fun _ => 0) (fun _ => 0)) < 0.
Proof. split; [exact c_lo_v|]. split; [exact c_side|]. split; [exact cube_exact|exact cube_computed]. Qed.
Print Assumptions C79_negative_volume.

(** C79, grids: if in double precision all entries are multiples of the same power of two and at most 100000 times that power,
    the determinant is exact; if all coordinates are such multiples and at most 32768 times the power, the volume of get_vol_hex
    has only two rounding errors: it is 0 for a flat cell and has the right sign *)
Theorem C79_grid : forall e,
  (forall m, (forall i j, (i < 3)%nat -> (j < 3)%nat -> on_grid e 100000 (m i j)) -> det_cofactorf binary64 m = det3 m) /\
  forall X N cell x0 y0 z0, (forall l d, (l < 8)%nat -> (d < 3)%nat -> on_grid e (2 ^ 15) (X (N cell l) d)) ->
    let V := hex_volume (fun l d => X (N cell l) d) in let v := fst (vol_hex_cellf binary64 X N cell x0 y0 z0) in
    Rabs (v - V) <= gamma u64 2 * Rabs V /\ (V = 0 -> v = 0) /\ (0 < V -> 0 < v) /\ (V < 0 -> v < 0).
Proof.
  intros e. split; [exact (det_grid e)|]. intros X N cell x0 y0 z0 H. cbv zeta. set (V := hex_volume _). rewrite (vol_hex_grid e X N cell x0 y0 z0 H). fold V.
  assert (Hu : 0 <= u64 < 1) by (assert (P := u64_range); lra).
  destruct (rnd_w u64 Hu binary64 binary64_rounds (1 / 12)) as (t1 & W1 & ->). destruct (rnd_w u64 Hu binary64 binary64_rounds (12 * V * (1 / 12 * t1))) as (t2 & W2 & ->).
  assert (W := within_mul u64 Hu 1 1 t1 t2 W1 W2). cbn [Nat.add] in W. assert (P := within_pos u64 Hu 2 _ W).
  replace (12 * V * (1 / 12 * t1) * t2) with (V * (t1 * t2)) by field. split; [|repeat split; intros; nra].
  replace (V * (t1 * t2) - V) with ((t1 * t2 - 1) * V) by ring. rewrite Rabs_mult. apply Rmult_le_compat_r; [apply Rabs_pos|].
  apply within_gamma; [exact Hu| |exact W]. cbn [INR]. unfold u64. lra.
Qed.
Print Assumptions C79_grid.

(** the hypotheses are met *)
Example C79_nonvacuous : rounds u64 binary64 /\ 26 * u64 < 1 /\ INR (3 * 1000 + 8) * u64 < 1 /\ monotone binary64 /\
  gamma u64 5 * (perm 3 (rows [[2;1;0];[0;3;1];[1;0;1]]) / Rabs (det3 (rows [[2;1;0];[0;3;1];[1;0;1]]))) < 1 /\
  (forall n d, on_grid 0 (2 ^ 15) (IZR (Z.of_nat (Verif.Spec_Patch.corner_coord n d)))) /\ gamma u64 19 * (12 * 1 ^ 3) < 1.
Proof.
  assert (U : u64 = / 9007199254740992) by (unfold u64; lra).
  split; [exact binary64_rounds|]. split; [lra|]. split.
  { rewrite U. replace (INR (3 * 1000 + 8)) with 3008 by (rewrite INR_IZR_INZ; reflexivity). lra. }
  split; [intros x y H; exact (Verif.Proof_FloatRefine.dl_mono _ _ Verif.Proof_FloatRefine5.double_like_b64 x y H)|].
  split; [|split].
  - rewrite perm3_eq. unfold det3, rows. cbn [nth]. unfold gamma. cbn [INR]. rewrite U.
    rewrite !(Rabs_pos_eq 0), !(Rabs_pos_eq 1), !(Rabs_pos_eq 2), !(Rabs_pos_eq 3) by lra. rewrite Rabs_pos_eq by lra. lra.
  - intros n d. exists (Z.of_nat (Verif.Spec_Patch.corner_coord n d)). split; [|change (bpow radix2 0) with 1; ring].
    assert (B : (Verif.Spec_Patch.corner_coord n d < 2)%nat) by (unfold Verif.Spec_Patch.corner_coord; apply Nat.mod_upper_bound; lia). lia.
  - unfold gamma. replace (INR 19) with 19 by (rewrite INR_IZR_INZ; reflexivity). rewrite U. lra.
Qed.
