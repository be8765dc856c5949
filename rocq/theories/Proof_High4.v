(** Jacobian determinants at the Lobatto points. *)
From Coq Require Import Reals List Arith NArith ZArith Lra Lia.
Import ListNotations.
Require Import Verif.Base Verif.RBase Verif.RSum Verif.RDer Verif.Poly Verif.Spec_Mat Verif.Spec_Lagrange Verif.Model_Common Verif.Spec_Common Verif.Proof_Common Verif.Model_Points Verif.Model_Lagrange
  Verif.Lagrange_Math Verif.Proof_LagElem Verif.Ex_Lagrange Verif.Model_Quad Verif.Proof_Quad Verif.Proof_Quad3 Verif.Model_Vtk Verif.Model_High Verif.Spec_Quad Verif.Spec_High
  Verif.Proof_Lob Verif.Proof_Box Verif.Proof_Blas Verif.Proof_High Verif.Proof_High2 Verif.Proof_High3.
Local Open Scope nat_scope.

Lemma is_grad_ext F G x y z g : (forall a b c, F a b c = G a b c) -> is_grad F x y z g -> is_grad G x y z g.
Proof.
  destruct g as [[a b] c]. intros H (A & B & C). split; [|split].
  - apply (der_ext (fun t => F t y z)); [intros; apply H|exact A].
  - apply (der_ext (fun t => F x t z)); [intros; apply H|exact B].
  - apply (der_ext (fun t => F x y t)); [intros; apply H|exact C].
Qed.
Lemma jac_det_ext F G x y z D : (forall d a b c, d < 3 -> F d a b c = G d a b c) -> jac_det F x y z D -> jac_det G x y z D.
Proof. intros H (M & A & E). exists M. split; [|exact E]. intros d Hd. apply (is_grad_ext (F d)); [intros; apply H; exact Hd|apply A; exact Hd]. Qed.
Lemma jac_det_unique F x y z D D' : jac_det F x y z D -> jac_det F x y z D' -> D = D'.
Proof.
  intros (M & A & ->) (M' & A' & ->). assert (E : forall d, d < 3 -> (M d 0%nat, M d 1%nat, M d 2%nat) = (M' d 0%nat, M' d 1%nat, M' d 2%nat)) by (intros d Hd; apply (is_grad_unique (F d) x y z); auto).
  assert (E0 := E 0 ltac:(lia)). assert (E1 := E 1 ltac:(lia)). assert (E2 := E 2 ltac:(lia)). unfold det3. congruence.
Qed.

(** * vertices *)
Lemma lob0_len : lobatto_nodes_1D_tmp (repeat None 1) 1 = Ok [Some (lob 1 0)].
Proof. reflexivity. Qed.
Lemma lob_array' p : p <= 9 -> exists a, lobatto_nodes_1D_tmp (repeat None (2 * p + 1)) (Z.of_nat (2 * p + 1)) = Ok a /\
  forall i, i < 2 * p + 1 -> getu a i = Ok (lob (2 * p + 1) i).
Proof.
  intros H. destruct (Nat.eq_dec p 0) as [->|]; [|apply lob_array; lia]. exists [Some (lob 1 0)]. split; [exact lob0_len|].
  intros i Hi. replace i with 0 by lia. reflexivity.
Qed.
Lemma tol_gap p : 1 <= p <= 9 -> (tol <= 2 / (7 * INR p * INR p))%R.
Proof.
  intros H. assert (P : (1 <= INR p <= 9)%R) by (split; [replace 1%R with (INR 1) by reflexivity|replace 9%R with (INR 9) by (cbn; lra)]; apply le_INR; lia).
  apply Rle_trans with (2 / 567)%R; [unfold tol; lra|]. unfold Rdiv. apply Rmult_le_compat_l; [lra|]. apply Rinv_le_contravar; nra.
Qed.
Lemma lob_apart p i j : p <= 9 -> i < 2 * p + 1 -> j < 2 * p + 1 -> i <> j -> (tol <= Rabs (lob (2 * p + 1) i - lob (2 * p + 1) j))%R.
Proof.
  intros Hp Hi Hj N. assert (Hp' : 1 <= p <= 9) by lia. assert (T := tol_gap p Hp'). assert (0 < tol)%R by (unfold tol; lra).
  destruct (Nat.lt_ge_cases i j).
  - assert (G := lob_gap p i j Hp' ltac:(lia)). rewrite Rabs_left1; lra.
  - assert (G := lob_gap p j i Hp' ltac:(lia)). rewrite Rabs_right; lra.
Qed.
Lemma even_sep p : p <= 9 -> separated (p + 1) (fun v => lob (2 * p + 1) (2 * v)).
Proof. intros Hp i j Hi Hj N. apply lob_apart; lia. Qed.
Lemma even_clean p i : p <= 9 -> i < 2 * p + 1 -> clean (p + 1) (fun v => lob (2 * p + 1) (2 * v)) (lob (2 * p + 1) i).
Proof.
  intros Hp Hi. destruct (Nat.Even_or_Odd i) as [(v & ->)|(v & ->)].
  - left. exists v. split; [lia|reflexivity].
  - right. intros w Hw. apply lob_apart; lia.
Qed.

(** * the vertex-to-node map *)
Lemma even_at p i j k : i < p + 1 -> j < p + 1 -> k < p + 1 -> let n := p + 1 in let n1 := 2 * p + 1 in
  even_lid p (i + j * n + k * n * n) = 2 * i + 2 * j * n1 + 2 * k * n1 * n1.
Proof. intros Hi Hj Hk n n1. unfold even_lid. cbv zeta. destruct (grid_at (p + 1) i j k Hi Hj Hk) as (A & B & C). unfold n. rewrite A, B, C. reflexivity. Qed.
Lemma radix_even p i j k : p <= 9 -> i < p + 1 -> j < p + 1 -> k < p + 1 -> let r := N.of_nat (2 * p + 1) in
  mixed_radix_to_base_10 [r; r; r] [N.of_nat (2 * i); N.of_nat (2 * j); N.of_nat (2 * k)] = Ok (N.of_nat (2 * i + 2 * j * (2 * p + 1) + 2 * k * (2 * p + 1) * (2 * p + 1))).
Proof.
  intros Hp Hi Hj Hk r. destruct (round_trip_digits [r; r; r] [N.of_nat (2 * i); N.of_nat (2 * j); N.of_nat (2 * k)]) as (v & -> & -> & _).
  - repeat constructor; unfold r; lia.
  - cbn [prodN]. assert (B : (r <= 19)%N) by (unfold r; lia). assert (Q : (19 * (19 * 19) <= 2 ^ 64)%N) by (cbn; lia). assert (r * (r * (r * 1)) <= 19 * (19 * 19))%N by (rewrite N.mul_1_r; repeat apply N.mul_le_mono; exact B). etransitivity; [eassumption|exact Q].
  - f_equal. cbn [positional]. unfold r. lia.
Qed.
Lemma vert_node_map_ok p : p <= 9 -> exists vm, vert_node_map p = Ok vm /\ forall v, v < (p + 1) ^ 3 -> getu vm v = Ok (even_lid p v).
Proof.
  intros Hp. unfold vert_node_map. cbv zeta. replace ((2 * p + 1 + 1) / 2) with (p + 1) by (replace (2 * p + 1 + 1) with ((p + 1) * 2) by lia; rewrite Nat.div_mul by lia; reflexivity).
  set (n := p + 1). set (r := N.of_nat (2 * p + 1)).
  set (Q := fun c (s : list (option nat) * nat) => snd s = c /\ length (fst s) = n ^ 3 /\ forall v, v < c -> nth_error (fst s) v = Some (Some (even_lid p v))).
  edestruct (loop_inv (fun k s => Q (k * n * n) s) n) as ((vm, c) & -> & H).
  3:{ cbn [bind]. exists vm. split; [reflexivity|]. intros v Hv. apply getu_some. apply H. cbn [Nat.pow] in Hv. nia. }
  - split; [reflexivity|]. cbn [fst snd]. split; [apply repeat_length|intros; lia].
  - intros k s Hk H.
    destruct (loop_inv (fun j s => Q (j * n + k * n * n) s) n (fun j st => loop n (fun i '(vm, vert_id) =>
      do node <- mixed_radix_to_base_10 [r; r; r] [N.of_nat (2 * i); N.of_nat (2 * j); N.of_nat (2 * k)];
      do vm <- set vm vert_id (Some (N.to_nat node));
      Ok (vm, vert_id + 1)) st) s) as (s' & E & H'); [exact H| |exists s'; split; [exact E|]; replace (S k * n * n) with (n * n + k * n * n) by ring; exact H'].
    clear s H. intros j s Hj H.
    destruct (loop_inv (fun i s => Q (i + j * n + k * n * n) s) n (fun i '(vm, vert_id) =>
      do node <- mixed_radix_to_base_10 [r; r; r] [N.of_nat (2 * i); N.of_nat (2 * j); N.of_nat (2 * k)];
      do vm <- set vm vert_id (Some (N.to_nat node));
      Ok (vm, vert_id + 1)) s) as (s' & E & H'); [exact H| |exists s'; split; [exact E|]; replace (S j * n + k * n * n) with (n + j * n + k * n * n) by ring; exact H'].
    clear s H. intros i (vm, c) Hi (Ec & L & H). cbn [fst snd] in *. subst c.
    unfold r. rewrite radix_even by assumption. cbn [bind]. assert (Lt : i + j * n + k * n * n < n ^ 3) by (apply grid3_lt; assumption).
    rewrite set_ok by lia. cbn [bind]. rewrite Nnat.Nat2N.id. eexists. split; [reflexivity|]. split; [cbn [snd]; lia|]. cbn [fst]. split; [rewrite upd_length; exact L|].
    intros v Hv. rewrite upd_nth by lia. destruct (Nat.eqb_spec v (i + j * n + k * n * n)) as [->|]; [|apply H; lia].
    unfold n. rewrite even_at by assumption. reflexivity.
Qed.
Lemma even_lt p v : v < (p + 1) ^ 3 -> even_lid p v < (2 * p + 1) ^ 3.
Proof.
  intros Hv. unfold even_lid. cbv zeta. assert (G : forall d, grid (p + 1) v d < p + 1) by (intros d; apply Nat.mod_upper_bound; lia).
  assert (G0 := G 0). assert (G1 := G 1). assert (G2 := G 2). apply grid3_lt; lia.
Qed.

(** * the determinants *)
Section Jac.
  Variables (p : nat) (N : nat -> nat -> nat) (X : nat -> nat -> R) (dj0 : list (option R)).
  Let n1 := 2 * p + 1. Let ng := n1 ^ 3.
  Definition point_det (g : nat) (D : R) : Prop :=
    jac_det (lobatto_geo p N X (g / ng)) (lob n1 (grid n1 g 0)) (lob n1 (grid n1 g 1)) (lob n1 (grid n1 g 2)) D.
  (** entry v after the first n points *)
  Definition entry (n : nat) (dj : list (option R)) (v : nat) : Prop :=
    (exists g D, g < n /\ point_node p N g = v /\ (forall g', g < g' < n -> point_node p N g' <> v) /\ nth_error dj v = Some (Some D) /\ point_det g D) \/
    ((forall g, g < n -> point_node p N g <> v) /\ nth_error dj v = nth_error dj0 v).
  Definition stored (n : nat) (dj : list (option R)) : Prop := length dj = length dj0 /\ forall v, v < length dj0 -> entry n dj v.
  Lemma stored_step n dj D : point_node p N n < length dj0 -> point_det n D -> stored n dj -> stored (S n) (upd dj (point_node p N n) (Some D)).
  Proof.
    intros Hn HD (L & H). split; [rewrite upd_length; exact L|]. intros v Hv. unfold entry. rewrite upd_nth by lia.
    destruct (Nat.eqb_spec v (point_node p N n)) as [->|Nv].
    - left. exists n, D. split; [lia|]. split; [reflexivity|]. split; [intros; lia|]. split; [reflexivity|exact HD].
    - destruct (H v Hv) as [(g & D' & A & B & C & E & F)|(A & B)].
      + left. exists g, D'. split; [lia|]. split; [exact B|]. split; [|auto]. intros g' Hg'. destruct (Nat.eq_dec g' n) as [->|]; [congruence|apply C; lia].
      + right. split; [|exact B]. intros g Hg. destruct (Nat.eq_dec g n) as [->|]; [congruence|apply A; lia].
  Qed.
End Jac.

Theorem eval_dets_ok Z0 w0 m N X dj0 : let p := m_order m in let ng := (2 * p + 1) ^ 3 in p <= 9 -> describes m ng N X -> m_num_nodes m <= length dj0 ->
  exists dj, evaluate_jacobian_determinants Z0 w0 m dj0 = Ok dj /\ stored p N X dj0 (m_num_elems m * ng) dj.
Proof.
  intros p ng Hp HM HL. unfold evaluate_jacobian_determinants. fold p. cbv zeta.
  set (n1 := 2 * p + 1). set (nv := (p + 1) ^ 3). set (ne := m_num_elems m). fold n1 in ng. fold ng.
  destruct (vert_node_map_ok p Hp) as (vm & -> & Hvm). cbn [bind].
  destruct (lob_array' p Hp) as (a & Ea & Ga). fold n1 in Ea, Ga. rewrite Ea. cbn [bind].
  assert (Ver : exists Z, loop (p + 1) (fun v Z => do q <- getu vm v; do x <- getu a q; Ok (fset Z v x)) Z0 = Ok Z /\ forall v, v < p + 1 -> Z v = lob n1 (2 * v)).
  { apply (loop_inv (fun c (Z : nat -> R) => forall v, v < c -> Z v = lob n1 (2 * v))); [intros; lia|]. intros v Z Hv H.
    rewrite Hvm by (cbn [Nat.pow]; nia). cbn [bind].
    assert (Ev : even_lid p v = 2 * v) by (assert (Q := even_at p v 0 0 Hv ltac:(lia) ltac:(lia)); cbv zeta in Q; replace (v + 0 * (p + 1) + 0 * (p + 1) * (p + 1)) with v in Q by lia; rewrite Q; lia).
    rewrite Ev, Ga by (unfold n1; lia). cbn [bind]. eexists. split; [reflexivity|]. intros u Hu. unfold fset. destruct (Nat.eqb_spec u v) as [->|]; [reflexivity|apply H; lia]. }
  destruct Ver as (Z & -> & HZ). cbn [bind].
  assert (HZ' : forall v, v < p + 1 -> lob n1 (2 * v) = Z v) by (intros; symmetry; auto).
  assert (Sep : separated (p + 1) Z) by (apply (separated_ext _ _ _ HZ'), even_sep, Hp).
  assert (Cube : (N.of_nat ((p + 1) * (p + 1) * (p + 1)) <= 2 ^ 64)%N).
  { assert ((p + 1) * (p + 1) * (p + 1) <= 1000) by nia. assert (Q : (1000 <= 2 ^ 64)%N) by (cbn; lia). lia. }
  destruct (constructor_ok p Z w0 Cube Sep) as (el & Eel). rewrite Eel. cbn [bind].
  assert (K : constructed p Z w0 el) by (split; [exact Eel|split; [exact Sep|exact Cube]]).
  assert (Cl : forall i, i < n1 -> clean (p + 1) Z (lob n1 i)) by (intros i Hi; apply (clean_ext _ _ _ _ HZ'), even_clean; [exact Hp|exact Hi]).
  match goal with |- exists dj, bind (loop ?N ?B ?S0) _ = _ /\ _ => set (body := B); set (s0 := S0) end.
  assert (Main : exists s, loop ne body s0 = Ok s /\ let '(dj, _, _, _, _) := s in stored p N X dj0 (ne * ng) dj).
  { edestruct (loop_inv (fun e (s : list (option R) * list (option R) * list (option R) * list (option R) * (nat -> res R)) =>
      let '(dj, vx, vy, vz, C) := s in stored p N X dj0 (e * ng) dj /\ length vx = nv /\ length vy = nv /\ length vz = nv) ne body s0) as (s & Es & Hs).
    3:{ exists s. split; [exact Es|]. destruct s as ((((dj, vx), vy), vz), C). apply Hs. }
    - unfold s0. rewrite !repeat_length. split; [|auto]. split; [reflexivity|]. intros v Hv. right. split; [intros; lia|reflexivity].
    - intros e ((((dj, vx), vy), vz), C) He (Fp & Lx & Ly & Lz). unfold body. cbn beta iota.
      destruct (vert_arrays_ok m ng N X nv (fun v => getu vm v) (even_lid p) e vx vy vz HM He) as (vx' & vy' & vz' & Ev & Fx & Fy & Fz); try assumption.
      { intros v Hv. split; [apply Hvm; exact Hv|apply even_lt; exact Hv]. }
      rewrite Ev. cbn [bind]. clear Ev vx vy vz Lx Ly Lz.
      edestruct (loop_inv (fun l (s : list (option R) * list (option R) * list (option R) * list (option R) * (nat -> res R)) =>
         let '(dj, vx, vy, vz, C) := s in stored p N X dj0 (e * ng + l) dj /\ vx = vx' /\ vy = vy' /\ vz = vz') ng) as (s & Es & Hs).
      3:{ exists s. split; [exact Es|]. destruct s as ((((dj', vx), vy), vz), C'). destruct Hs as (F & -> & -> & ->).
          replace (S e * ng) with (e * ng + ng) by lia. destruct Fx as (Fx & _), Fy as (Fy & _), Fz as (Fz & _). auto. }
      + rewrite Nat.add_0_r. auto.
      + intros l ((((dj1, wx), wy), wz), C1) Hl (F1 & -> & -> & ->). cbn beta iota.
        rewrite (ref_point_ok a n1 l (lob n1)) by (unfold n1; lia || exact Ga). cbn [bind].
        assert (Lt : forall d, grid n1 l d < n1) by (intros d; apply Nat.mod_upper_bound; unfold n1; lia).
        destruct (proj1 HM e l He Hl) as (En & Hn). rewrite En. cbn [bind].
        destruct (c_jac p Z w0 el K (ptr vx') (ptr vy') (ptr vz') (lob n1 (grid n1 l 0)) (lob n1 (grid n1 l 1)) (lob n1 (grid n1 l 2)) C1 (Cl _ (Lt 0)) (Cl _ (Lt 1)) (Cl _ (Lt 2)))
          as (J & C2 & _ & Gx & Gy & Gz & Gd & _). destruct (Gd C1) as (C3 & ->). cbn [bind].
        assert (Ep : point_node p N (e * ng + l) = N e l).
        { unfold point_node. fold n1. fold ng. unfold ng at 1. rewrite loop_nat_split by exact Hl. f_equal. rewrite Nat.add_comm, Nat.mod_add by (unfold ng; apply Nat.pow_nonzero; unfold n1; lia). apply Nat.mod_small. exact Hl. }
        rewrite set_ok by (destruct F1 as (-> & _); lia). cbn [bind]. eexists. split; [reflexivity|]. cbn beta iota. split; [|auto].
        replace (e * ng + S l) with (S (e * ng + l)) by lia. rewrite <- Ep.
        apply stored_step; [rewrite Ep; lia| |exact F1].
        unfold point_det. fold n1. rewrite !grid_elem by (unfold n1; lia). fold ng. unfold ng. rewrite loop_nat_split by exact Hl.
        exists (of_row_major 3 J). split; [|reflexivity].
        assert (Pos : forall d w a b c, filled nv w (fun v => X (N e (even_lid p v)) d) -> field3 (p + 1) Z (ptr w) a b c = lobatto_geo p N X e d a b c).
        { intros d w x y z Fw. unfold lobatto_geo. fold n1. apply field3_ext; [exact HZ|]. intros v Hv. exact (ptr_filled nv _ _ v Fw Hv). }
        intros d Hd. unfold of_row_major. assert (D3 : d = 0 \/ d = 1 \/ d = 2) by lia. destruct D3 as [-> | [-> | ->]]; cbn [Nat.mul Nat.add].
        * eapply is_grad_ext; [intros; apply (Pos 0 vx' _ _ _ Fx)|exact Gx].
        * eapply is_grad_ext; [intros; apply (Pos 1 vy' _ _ _ Fy)|exact Gy].
        * eapply is_grad_ext; [intros; apply (Pos 2 vz' _ _ _ Fz)|exact Gz]. }
  destruct Main as (s & Es & Hs). rewrite Es. destruct s as ((((dj, vx), vy), vz), C). cbn [bind]. exists dj. split; [reflexivity|exact Hs].
Qed.

(** * polynomial maps *)
Lemma field3_poly n Z c : (forall y z, poly_lt n (fun x => field3 n Z c x y z)) /\ (forall x z, poly_lt n (fun y => field3 n Z c x y z)) /\ (forall x y, poly_lt n (fun z => field3 n Z c x y z)).
Proof.
  unfold field3, phi3. split; [|split]; intros u v; apply poly_sum; intros k Hk; apply poly_sum; intros j Hj; apply poly_sum; intros i Hi.
  - apply (poly_ext n (fun x => (c (i + j * n + k * n * n)%nat * (ell n Z j u * ell n Z k v) * ell n Z i x)%R)); [intros; ring|apply poly_scal, ell_poly; exact Hi].
  - apply (poly_ext n (fun x => (c (i + j * n + k * n * n)%nat * (ell n Z i u * ell n Z k v) * ell n Z j x)%R)); [intros; ring|apply poly_scal, ell_poly; exact Hj].
  - apply (poly_ext n (fun x => (c (i + j * n + k * n * n)%nat * (ell n Z i u * ell n Z j v) * ell n Z k x)%R)); [intros; ring|apply poly_scal, ell_poly; exact Hk].
Qed.
Lemma lobatto_geo_repro p N X e d (F : R -> R -> R -> R) : p <= 9 ->
  (forall y z, poly_lt (p + 1) (fun x => F x y z)) -> (forall x z, poly_lt (p + 1) (fun y => F x y z)) -> (forall x y, poly_lt (p + 1) (fun z => F x y z)) ->
  let n1 := 2 * p + 1 in
  (forall i j k, i < n1 -> j < n1 -> k < n1 -> X (N e (i + j * n1 + k * n1 * n1)) d = F (lob n1 i) (lob n1 j) (lob n1 k)) ->
  forall x y z, lobatto_geo p N X e d x y z = F x y z.
Proof.
  intros Hp Px Py Pz n1 H. apply (field3_repro (p + 1)); [apply separated_distinct, even_sep, Hp|exact Px|exact Py|exact Pz|].
  intros i j k Hi Hj Hk. rewrite even_at by assumption. apply H; unfold n1; lia.
Qed.
