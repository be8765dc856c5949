(** Jacobian determinants at the vertices of a mesh. *)
From Coq Require Import Reals List Arith NArith ZArith Lra Lia.
Import ListNotations.
Require Import Verif.Base Verif.RBase Verif.RSum Verif.RDer Verif.Poly Verif.Spec_Mat Verif.Spec_Lagrange Verif.Model_Points Verif.Proof_Points Verif.Model_Lagrange
  Verif.Lagrange_Math Verif.Proof_LagElem Verif.Ex_Lagrange Verif.Model_Vtk Verif.Model_High Verif.Model_Annulus Verif.Spec_Vtk Verif.Spec_High Verif.Spec_Annulus
  Verif.Proof_Box Verif.Proof_High Verif.Proof_High4 Verif.Proof_Annulus.
Local Open Scope nat_scope.

Lemma order_small p : (N.of_nat ((p + 1) * (p + 1) * (p + 1)) <= 2 ^ 64)%N -> (INR p <= 2 ^ 52)%R.
Proof.
  intros H. assert (B : (Z.of_nat p <= 2 ^ 52)%Z).
  { assert (H' : (Z.of_nat (p + 1) * Z.of_nat (p + 1) * Z.of_nat (p + 1) <= 2 ^ 64)%Z).
    { apply N2Z.inj_le in H. rewrite nat_N_Z in H. rewrite !Nat2Z.inj_mul in H. exact H. }
    destruct (Z.le_gt_cases (Z.of_nat p) (2 ^ 52)) as [|G]; [assumption|exfalso].
    assert (2 ^ 52 <= Z.of_nat (p + 1))%Z by lia. set (a := Z.of_nat (p + 1)) in *.
    assert (2 ^ 52 * 2 ^ 52 <= a * a)%Z by (apply Z.mul_le_mono_nonneg; lia).
    assert (2 ^ 52 * 2 ^ 52 * 2 ^ 52 <= a * a * a)%Z by (apply Z.mul_le_mono_nonneg; lia). lia. }
  rewrite INR_IZR_INZ. apply IZR_le in B. eapply Rle_trans; [exact B|]. rewrite pow_IZR. apply IZR_le. cbn. lia.
Qed.
Lemma vertex1_inc p i j : 1 <= p -> i < j -> (2 / INR p <= vertex1 p j - vertex1 p i)%R.
Proof.
  intros Hp Hij. unfold vertex1. assert (Pp : (0 < INR p)%R) by (apply lt_0_INR; lia). assert (D : (INR i + 1 <= INR j)%R) by (rewrite <- S_INR; apply le_INR; lia).
  replace (-1 + 2 * INR j / INR p - (-1 + 2 * INR i / INR p))%R with (2 / INR p * (INR j - INR i))%R by (field; lra).
  assert (0 < 2 / INR p)%R by (apply Rdiv_lt_0_compat; lra). nra.
Qed.
Lemma vertex1_separated p : 1 <= p -> (N.of_nat ((p + 1) * (p + 1) * (p + 1)) <= 2 ^ 64)%N -> separated (p + 1) (vertex1 p).
Proof.
  intros Hp B. apply order_small in B. assert (Pp : (0 < INR p)%R) by (apply lt_0_INR; lia).
  assert (T : (tol <= 2 / INR p)%R) by (unfold tol, Rdiv; apply Rmult_le_compat_l; [lra|apply Rinv_le_contravar; lra]).
  assert (0 < tol)%R by (unfold tol; lra).
  intros i j Hi Hj N. destruct (Nat.lt_ge_cases i j).
  - assert (W := vertex1_inc p i j Hp ltac:(lia)). rewrite Rabs_left1; lra.
  - assert (W := vertex1_inc p j i Hp ltac:(lia)). rewrite Rabs_right; lra.
Qed.

Lemma extract_ok m nl N X nv e vx vy vz : describes m nl N X -> e < m_num_elems m -> nv <= nl -> length vx = nv -> length vy = nv -> length vz = nv ->
  exists vx' vy' vz', extract m nv e (vx, vy, vz) = Ok (vx', vy', vz') /\
    filled nv vx' (fun v => X (N e v) 0) /\ filled nv vy' (fun v => X (N e v) 1) /\ filled nv vz' (fun v => X (N e v) 2).
Proof.
  intros (HN & HX) He Hl Lx Ly Lz. unfold extract.
  set (Q := fun d n (l : list (option R)) => length l = nv /\ forall v, v < n -> nth_error l v = Some (Some (X (N e v) d))).
  edestruct (loop_inv (fun n '(vx, vy, vz) => Q 0 n vx /\ Q 1 n vy /\ Q 2 n vz) nv) as (((vx', vy'), vz') & E & H0 & H1 & H2).
  3:{ exists vx', vy', vz'. split; [exact E|]. auto. }
  - repeat split; try assumption; intros; lia.
  - intros v ((wx, wy), wz) Hv (H0 & H1 & H2). cbn beta iota.
    destruct (HN e v He ltac:(lia)) as (-> & Hn). cbn [bind]. rewrite !HX by (exact Hn || lia). cbn [bind].
    rewrite !set_ok by (destruct H0, H1, H2; lia). cbn [bind]. eexists. split; [reflexivity|]. cbn beta iota.
    assert (W : forall d l, Q d v l -> Q d (S v) (upd l v (Some (X (N e v) d)))).
    { intros d l (L & G). split; [rewrite upd_length; exact L|]. intros u Hu. rewrite upd_nth by lia. destruct (Nat.eqb_spec u v) as [->|]; [reflexivity|apply G; lia]. }
    auto.
Qed.

(** entry q of the result is right *)
Definition det_entry (p : nat) N X (dets : list (option R)) (q : nat) : Prop :=
  let n := p + 1 in let v := q mod (n * n * n) in
  exists D, nth_error dets q = Some (Some D) /\ jac_det (geo p N X (q / (n * n * n))) (vertex1 p (v mod n)) (vertex1 p (v / n mod n)) (vertex1 p (v / n / n)) D.
Definition dets_upto (p ne : nat) N X (c : nat) (dets : list (option R)) : Prop :=
  let n := p + 1 in length dets = ne * (n * n * n) /\ forall q, q < c -> det_entry p N X dets q.

Theorem compute_ok Z0 w0 m N X : let p := m_order m in let n := p + 1 in 1 <= p -> (N.of_nat (n * n * n) <= 2 ^ 64)%N -> describes m (n * n * n) N X ->
  exists dets, compute_jacobian_determinants Z0 w0 m = Ok dets /\ dets_upto p (m_num_elems m) N X (m_num_elems m * (n * n * n)) dets.
Proof.
  intros p n Hp Cube HM. unfold compute_jacobian_determinants. fold p. cbv zeta. fold n. replace (Nat.pow n 3) with (n * n * n) by (cbn [Nat.pow]; lia).
  set (nv := n * n * n) in *. set (ne := m_num_elems m).
  assert (En : n = p + 1) by reflexivity.
  destruct (equi_vertices p Z0 ltac:(lia)) as (Z & EZ & HZ). fold n in EZ, HZ. rewrite EZ. cbn [bind].
  assert (HZ' : forall v, v < n -> vertex1 p v = Z v) by (intros; symmetry; auto).
  assert (Sep : separated (p + 1) Z) by (apply (separated_ext _ _ _ HZ'), vertex1_separated; [exact Hp|exact Cube]).
  destruct (constructor_ok p Z w0 Cube Sep) as (el & Eel). rewrite Eel. cbn [bind].
  assert (K : constructed p Z w0 el) by (split; [exact Eel|split; [exact Sep|exact Cube]]).
  assert (Cl : forall i, i < n -> clean (p + 1) Z (Z i)) by (intros i Hi; left; exists i; auto).
  match goal with |- exists dj, bind (loop ?N ?B ?S0) _ = _ /\ _ => set (body := B); set (s0 := S0) end.
  assert (Main : exists s, loop ne body s0 = Ok s /\ let '(dets, _, _, _, _) := s in dets_upto p ne N X (ne * nv) dets).
  { edestruct (loop_inv (fun e (s : list (option R) * list (option R) * list (option R) * list (option R) * (nat -> res R)) =>
      let '(dets, vx, vy, vz, C) := s in dets_upto p ne N X (e * nv) dets /\ length vx = nv /\ length vy = nv /\ length vz = nv) ne body s0) as (s & Es & Hs).
    3:{ exists s. split; [exact Es|]. destruct s as ((((dj, vx), vy), vz), C). apply Hs. }
    - unfold s0. rewrite !repeat_length. split; [|auto]. split; [apply repeat_length|]. intros q Hq. lia.
    - intros e ((((dets, vx), vy), vz), C) He (Fp & Lx & Ly & Lz). unfold body. cbn beta iota.
      destruct (extract_ok m nv N X nv e vx vy vz HM He ltac:(lia) Lx Ly Lz) as (vx' & vy' & vz' & Ev & Fx & Fy & Fz).
      rewrite Ev. cbn [bind]. clear Ev vx vy vz Lx Ly Lz.
      edestruct (nest3 (fun l (s : list (option R) * list (option R) * list (option R) * list (option R) * (nat -> res R)) =>
         let '(dets, vx, vy, vz, C) := s in dets_upto p ne N X (e * nv + l) dets /\ vx = vx' /\ vy = vy' /\ vz = vz') n n n (fun k j i => det_at el Z n nv e k j i)) as (s & Es & Hs).
      5:{ exists s. split; [exact Es|]. destruct s as ((((dets', vx), vy), vz), C'). destruct Hs as (F & -> & -> & ->).
          replace (S e * nv) with (e * nv + n * n * n) by (unfold nv; lia). destruct Fx as (Fx & _), Fy as (Fy & _), Fz as (Fz & _). auto. }
      + lia.
      + lia.
      + rewrite Nat.add_0_r. auto.
      + intros i j k ((((dets1, wx), wy), wz), C1) Hi Hj Hk (F1 & -> & -> & ->). unfold det_at.
        destruct (c_jac p Z w0 el K (ptr vx') (ptr vy') (ptr vz') (Z i) (Z j) (Z k) C1 (Cl _ Hi) (Cl _ Hj) (Cl _ Hk)) as (J & C2 & _ & Gx & Gy & Gz & Gd & _).
        destruct (Gd C1) as (C3 & ->). cbn [bind]. set (l := i + (j + k * n) * n). replace (i + j * n + k * n * n) with l by (unfold l; ring).
        assert (Hl : l < nv) by (unfold l, nv; nia). destruct F1 as (L1 & G1). cbv zeta in L1. fold n in L1. fold nv in L1.
        assert (Room : e * nv + l < ne * nv) by nia.
        rewrite set_ok by lia. cbn [bind]. eexists. split; [reflexivity|]. cbn beta iota. split; [|auto].
        replace (e * nv + S l) with (S (e * nv + l)) by lia. split; [rewrite upd_length; exact L1|]. intros q Hq.
        destruct (Nat.eq_dec q (e * nv + l)) as [->|Nq].
        * unfold det_entry. cbv zeta. fold n. fold nv. exists (det3 (of_row_major 3 J)). split; [apply upd_same; lia|].
          replace (e * nv + l) with (l + e * nv) by lia. rewrite mod_add_l, div_add_l by exact Hl.
          unfold l. rewrite mod_add_l, div_add_l by exact Hi. rewrite mod_add_l, div_add_l by exact Hj.
          exists (of_row_major 3 J). split; [|reflexivity].
          assert (Pos : forall d w a b c, filled nv w (fun v => X (N e v) d) -> field3 (p + 1) Z (ptr w) a b c = geo p N X e d a b c).
          { intros d w x y z Fw. unfold geo. apply field3_ext; [exact HZ|]. intros v Hv. apply (ptr_filled nv w (fun v => X (N e v) d) v Fw). unfold nv. cbn [Nat.pow] in Hv. lia. }
          intros d Hd. unfold of_row_major. assert (D3 : d = 0 \/ d = 1 \/ d = 2) by lia. rewrite !HZ' by assumption. destruct D3 as [-> | [-> | ->]]; cbn [Nat.mul Nat.add].
          -- eapply is_grad_ext; [intros; apply (Pos 0 vx' _ _ _ Fx)|exact Gx].
          -- eapply is_grad_ext; [intros; apply (Pos 1 vy' _ _ _ Fy)|exact Gy].
          -- eapply is_grad_ext; [intros; apply (Pos 2 vz' _ _ _ Fz)|exact Gz].
        * destruct (G1 q ltac:(lia)) as (D & A & B). exists D. split; [rewrite upd_diff by lia; exact A|exact B]. }
  destruct Main as (s & Es & Hs). rewrite Es. destruct s as ((((dj, vx), vy), vz), C). cbn [bind]. exists dj. split; [reflexivity|exact Hs].
Qed.

(** * the determinant at a vertex, from the vertex coordinates *)
Lemma interp_swap n Z c t : rsum n (fun i => c i * ell n Z i t)%R = interp n Z c t.
Proof. reflexivity. Qed.
Lemma line_x n Z c j k t : distinct n Z -> j < n -> k < n -> field3 n Z c t (Z j) (Z k) = interp n Z (fun i => c (i + j * n + k * n * n)) t.
Proof.
  intros Dz Hj Hk. unfold field3. rewrite (rsum_single n k); [|exact Hk|].
  - rewrite (rsum_single n j); [|exact Hj|].
    + unfold interp. apply rsum_ext. intros i Hi. unfold phi3. rewrite !ell_same by assumption. ring.
    + intros j' Hj' Nj. apply rsum_zero. intros i Hi. unfold phi3. rewrite (ell_other n Z j' j) by (assumption || congruence). ring.
  - intros k' Hk' Nk. apply rsum_zero. intros j' Hj'. apply rsum_zero. intros i Hi. unfold phi3. rewrite (ell_other n Z k' k) by (assumption || congruence). ring.
Qed.
Lemma line_y n Z c i k t : distinct n Z -> i < n -> k < n -> field3 n Z c (Z i) t (Z k) = interp n Z (fun j => c (i + j * n + k * n * n)) t.
Proof.
  intros Dz Hi Hk. unfold field3. rewrite (rsum_single n k); [|exact Hk|].
  - unfold interp. apply rsum_ext. intros j Hj. rewrite (rsum_single n i); [|exact Hi|].
    + unfold phi3. rewrite !ell_same by assumption. ring.
    + intros i' Hi' Ni. unfold phi3. rewrite (ell_other n Z i' i) by (assumption || congruence). ring.
  - intros k' Hk' Nk. apply rsum_zero. intros j' Hj'. apply rsum_zero. intros i' Hi'. unfold phi3. rewrite (ell_other n Z k' k) by (assumption || congruence). ring.
Qed.
Lemma line_z n Z c i j t : distinct n Z -> i < n -> j < n -> field3 n Z c (Z i) (Z j) t = interp n Z (fun k => c (i + j * n + k * n * n)) t.
Proof.
  intros Dz Hi Hj. unfold field3, interp. apply rsum_ext. intros k Hk. rewrite (rsum_single n j); [|exact Hj|].
  - rewrite (rsum_single n i); [|exact Hi|].
    + unfold phi3. rewrite !ell_same by assumption. ring.
    + intros i' Hi' Ni. unfold phi3. rewrite (ell_other n Z i' i) by (assumption || congruence). ring.
  - intros j' Hj' Nj. apply rsum_zero. intros i' Hi'. unfold phi3. rewrite (ell_other n Z j' j) by (assumption || congruence). ring.
Qed.
Lemma grad_vertex n Z c i j k : distinct n Z -> i < n -> j < n -> k < n ->
  is_grad (field3 n Z c) (Z i) (Z j) (Z k)
    (rsum n (fun m => c (m + j * n + k * n * n)%nat * dell n Z m (Z i))%R, rsum n (fun m => c (i + m * n + k * n * n)%nat * dell n Z m (Z j))%R, rsum n (fun m => c (i + j * n + m * n * n)%nat * dell n Z m (Z k))%R).
Proof.
  intros Dz Hi Hj Hk. split; [|split].
  - apply (der_ext (interp n Z (fun m => c (m + j * n + k * n * n)))); [intros; symmetry; apply line_x; assumption|apply interp_der].
  - apply (der_ext (interp n Z (fun m => c (i + m * n + k * n * n)))); [intros; symmetry; apply line_y; assumption|apply interp_der].
  - apply (der_ext (interp n Z (fun m => c (i + j * n + m * n * n)))); [intros; symmetry; apply line_z; assumption|apply interp_der].
Qed.
(** affine data have a constant slope *)
Lemma slope_affine n Z a b x : distinct n Z -> 2 <= n -> rsum n (fun m => (a + b * Z m) * dell n Z m x)%R = b.
Proof.
  intros Dz Hn. symmetry. apply (interp_eq_iff_der n Z (fun m => a + b * Z m)%R). apply (der_ext (fun t => a + b * t)%R).
  - intros t. symmetry. apply (interp_repro n Z (fun t => a + b * t)%R); [exact Dz|].
    apply (poly_mono 2); [exact Hn|]. exists (fun k => match k with 0 => a | _ => b end). intros y. cbn. ring.
  - der_tac. ring.
Qed.
