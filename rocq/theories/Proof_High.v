(** High-order refinement: placement of the points. *)
From Coq Require Import Reals List Arith NArith ZArith Lra Lia.
Import ListNotations.
Require Import Verif.Base Verif.RBase Verif.RSum Verif.Spec_Lagrange Verif.Model_Common Verif.Model_Points Verif.Proof_Points Verif.Model_Lagrange
  Verif.Lagrange_Math Verif.Proof_Lagrange Verif.Proof_LagElem Verif.Ex_Lagrange Verif.Model_Quad Verif.Proof_Quad3 Verif.Model_Vtk Verif.Model_High Verif.Spec_Quad Verif.Spec_High Verif.Proof_Lob Verif.Proof_Box Verif.Proof_Blas.
Local Open Scope nat_scope.

(** * the interpolant depends only on the first n vertices and the n^3 coefficients *)
Lemma ell_ext n Z Z' i x : (forall v, v < n -> Z v = Z' v) -> i < n -> ell n Z i x = ell n Z' i x.
Proof. intros H Hi. unfold ell. apply rprod_ext. intros j Hj. destruct (Nat.eqb j i); [reflexivity|]. rewrite !H by lia. reflexivity. Qed.
Lemma grid3_lt n i j k : i < n -> j < n -> k < n -> i + j * n + k * n * n < n ^ 3.
Proof. intros. cbn [Nat.pow]. nia. Qed.
Lemma field3_ext n Z Z' c c' x y z : (forall v, v < n -> Z v = Z' v) -> (forall v, v < n ^ 3 -> c v = c' v) ->
  field3 n Z c x y z = field3 n Z' c' x y z.
Proof.
  intros HZ Hc. unfold field3. apply rsum_ext. intros k Hk. apply rsum_ext. intros j Hj. apply rsum_ext. intros i Hi.
  unfold phi3. rewrite !(ell_ext n Z Z') by assumption. rewrite Hc by (apply grid3_lt; assumption). reflexivity.
Qed.

(** * 1D data *)
Lemma sub1 p : (p + 1 - 1 = p)%nat. Proof. lia. Qed.
Lemma equi_vertices p Z0 : 1 <= p -> exists Z, equispaced_points (p + 1) (-1) 1 Z0 = Ok Z /\ forall v, v < p + 1 -> Z v = vertex1 p v.
Proof.
  intros Hp. destruct (equi_ok (p + 1) (-1) 1 Z0 ltac:(lia)) as (Z & E & H & _). exists Z. split; [exact E|].
  intros v Hv. rewrite H by exact Hv. rewrite sub1. unfold vertex1. unfold Rdiv. ring.
Qed.
Lemma vertex1_sep p : 1 <= p <= 9 -> separated (p + 1) (vertex1 p).
Proof.
  intros Hp. assert (W : forall i j, i < j < p + 1 -> (tol <= vertex1 p j - vertex1 p i)%R).
  { intros i j Hij. unfold vertex1. assert (Pp : (0 < INR p)%R) by (apply lt_0_INR; lia). assert (P9 : (INR p <= 9)%R) by (replace 9%R with (INR 9) by (cbn; lra); apply le_INR; lia).
    assert (D : (INR i + 1 <= INR j)%R) by (rewrite <- S_INR; apply le_INR; lia).
    assert (Q : (/ 9 <= / INR p)%R) by (apply Rinv_le_contravar; lra).
    assert (T : (tol <= / 100)%R) by (unfold tol; lra). unfold Rdiv. nra. }
  intros i j Hi Hj N. destruct (Nat.lt_ge_cases i j).
  - rewrite Rabs_minus_sym. specialize (W i j ltac:(lia)). assert (0 < tol)%R by (unfold tol; lra). rewrite Rabs_right by lra. exact W.
  - specialize (W j i ltac:(lia)). assert (0 < tol)%R by (unfold tol; lra). rewrite Rabs_right by lra. exact W.
Qed.
Lemma lob_clean p i : 1 <= p <= 9 -> i < 2 * p + 1 -> clean (p + 1) (vertex1 p) (lob (2 * p + 1) i).
Proof.
  intros Hp Hi. destruct (lob_facts_ok p Hp) as (_ & F & _). unfold clean. unfold vertex1 in *.
  (* decide whether some vertex coincides *)
  assert (D : forall n, n <= p + 1 -> (exists v, v < n /\ lob (2 * p + 1) i = (-1 + 2 * INR v / INR p)%R) \/
     forall v, v < n -> (tol <= Rabs (-1 + 2 * INR v / INR p - lob (2 * p + 1) i))%R).
  { induction n as [|n IH]; intros Hn; [right; intros; lia|]. destruct IH as [(v & Hv & E)|IH]; [lia|left; exists v; split; [lia|exact E]|].
    destruct (F i n Hi ltac:(lia)) as [E|E]; [left; exists n; split; [lia|exact E]|]. right. intros v Hv. destruct (Nat.eq_dec v n) as [->|]; [exact E|apply IH; lia]. }
  destruct (D (p + 1) (le_n _)) as [(v & Hv & E)|H]; [left; exists v; auto|right; exact H].
Qed.
Lemma clean_ext n Z Z' x : (forall v, v < n -> Z v = Z' v) -> clean n Z x -> clean n Z' x.
Proof.
  intros H [(i & Hi & E)|C]; [left; exists i; rewrite <- H by exact Hi; auto|right; intros i Hi; rewrite <- H by exact Hi; apply C; exact Hi].
Qed.
Lemma separated_ext n Z Z' : (forall v, v < n -> Z v = Z' v) -> separated n Z -> separated n Z'.
Proof. intros H S i j Hi Hj. rewrite <- !H by assumption. apply S; assumption. Qed.
Lemma cube_small p : 1 <= p <= 9 -> (N.of_nat ((p + 1) * (p + 1) * (p + 1)) <= 2 ^ 64)%N.
Proof. intros H. assert ((p + 1) * (p + 1) * (p + 1) <= 1000) by nia. assert (Q : (1000 <= 2 ^ 64)%N) by (cbn; lia). lia. Qed.
Lemma lob_array p : 1 <= p <= 9 -> exists a, lobatto_nodes_1D_tmp (repeat None (2 * p + 1)) (Z.of_nat (2 * p + 1)) = Ok a /\
  forall i, i < 2 * p + 1 -> getu a i = Ok (lob (2 * p + 1) i).
Proof.
  intros Hp. unfold lobatto_nodes_1D_tmp. rewrite swage_same.
  destruct (stores_wrote (2 * p + 1) (repeat None (2 * p + 1)) _ (lob_len (2 * p + 1) ltac:(lia)) ltac:(rewrite repeat_length; lia)) as (a & E & _ & W).
  exists a. split; [exact E|]. intros i Hi. apply getu_some. rewrite W, ltb_t by exact Hi. reflexivity.
Qed.

(** * reference coordinates *)
Lemma ref_point_ok a n1 lid (f : nat -> R) : 0 < n1 -> (forall i, i < n1 -> getu a i = Ok (f i)) ->
  ref_point a n1 lid = Ok (f (grid n1 lid 0), f (grid n1 lid 1), f (grid n1 lid 2)).
Proof.
  intros Hn G. unfold ref_point. cbv zeta. cbn [base_10_to_mixed_radix].
  destruct (N.eqb_spec (N.of_nat n1) 0); [lia|]. cbn [bind get nth_error].
  rewrite !Nnat.N2Nat.inj_mod, !Nnat.N2Nat.inj_div, !Nnat.Nat2N.id.
  assert (E1 : (lid / n1) mod n1 = grid n1 lid 1) by (unfold grid; rewrite Nat.pow_1_r; reflexivity).
  assert (E0 : lid mod n1 = grid n1 lid 0) by (unfold grid; rewrite Nat.pow_0_r, Nat.div_1_r; reflexivity).
  assert (E2 : (lid / n1 / n1) mod n1 = grid n1 lid 2) by (unfold grid; rewrite Nat.div_div by lia; f_equal; f_equal; cbn [Nat.pow]; lia).
  rewrite E0, E1, E2. assert (Lt : forall d, grid n1 lid d < n1) by (intros d; apply Nat.mod_upper_bound; lia).
  rewrite !G by apply Lt. reflexivity.
Qed.

(** * vertex coordinates of an element *)
Definition filled (nv : nat) (l : list (option R)) (f : nat -> R) : Prop := length l = nv /\ forall v, v < nv -> nth_error l v = Some (Some (f v)).
Lemma ptr_filled nv l f v : filled nv l f -> v < nv -> ptr l v = f v.
Proof. intros (_ & H) Hv. unfold ptr. rewrite H by exact Hv. reflexivity. Qed.
Lemma vert_arrays_ok m nl N X nv lid f e vx vy vz : describes m nl N X -> e < m_num_elems m ->
  (forall v, v < nv -> lid v = Ok (f v) /\ f v < nl) -> length vx = nv -> length vy = nv -> length vz = nv ->
  exists vx' vy' vz', vert_arrays m nv lid e (vx, vy, vz) = Ok (vx', vy', vz') /\
    filled nv vx' (fun v => X (N e (f v)) 0) /\ filled nv vy' (fun v => X (N e (f v)) 1) /\ filled nv vz' (fun v => X (N e (f v)) 2).
Proof.
  intros (HN & HX) He Hl Lx Ly Lz. unfold vert_arrays.
  set (Q := fun d n (l : list (option R)) => length l = nv /\ forall v, v < n -> nth_error l v = Some (Some (X (N e (f v)) d))).
  edestruct (loop_inv (fun n '(vx, vy, vz) => Q 0 n vx /\ Q 1 n vy /\ Q 2 n vz) nv) as (((vx', vy'), vz') & E & H0 & H1 & H2).
  3:{ exists vx', vy', vz'. split; [exact E|]. auto. }
  - repeat split; try assumption; intros; lia.
  - intros v ((wx, wy), wz) Hv (H0 & H1 & H2). cbn beta iota. destruct (Hl v Hv) as (-> & Hf). cbn [bind].
    destruct (HN e (f v) He Hf) as (-> & Hn). cbn [bind]. rewrite !HX by (exact Hn || lia). cbn [bind].
    rewrite !set_ok by (destruct H0, H1, H2; lia). cbn [bind]. eexists. split; [reflexivity|]. cbn beta iota.
    assert (W : forall d l, Q d v l -> Q d (S v) (upd l v (Some (X (N e (f v)) d)))).
    { intros d l (L & G). split; [rewrite upd_length; exact L|]. intros u Hu. rewrite upd_nth by lia. destruct (Nat.eqb_spec u v) as [->|]; [reflexivity|apply G; lia]. }
    auto.
Qed.

Lemma loop_nat_split n1 e lid : lid < n1 ^ 3 -> (e * n1 ^ 3 + lid) / n1 ^ 3 = e.
Proof. intros H. rewrite Nat.div_add_l by lia. rewrite Nat.div_small by exact H. lia. Qed.
Lemma grid_elem n1 e lid d : 0 < n1 -> d < 3 -> grid n1 (e * n1 ^ 3 + lid) d = grid n1 lid d.
Proof.
  intros Hn Hd. unfold grid. assert (E : e * n1 ^ 3 = (e * n1 ^ (2 - d) * n1) * n1 ^ d).
  { replace (n1 ^ 3) with (n1 ^ (2 - d) * n1 * n1 ^ d); [nia|]. replace 3 with ((2 - d) + 1 + d) by lia. rewrite !Nat.pow_add_r, Nat.pow_1_r. lia. }
  rewrite E, Nat.div_add_l by (apply Nat.pow_nonzero; lia). rewrite Nat.add_comm. apply Nat.mod_add. lia.
Qed.

(** * the points *)
Theorem high_points_ok Z0 w0 m N X : let p := m_order m in 1 <= p <= 9 -> describes m ((p + 1) ^ 3) N X ->
  exists pts, high_points Z0 w0 m = Ok pts /\ length pts = m_num_elems m * (2 * p + 1) ^ 3 * 3 /\
    forall g d, g < m_num_elems m * (2 * p + 1) ^ 3 -> d < 3 -> getu pts (g * 3 + d) = Ok (gauss_pos p N X g d).
Proof.
  intros p Hp HM. unfold high_points. fold p. cbv zeta.
  set (n1 := 2 * p + 1). set (ng := n1 ^ 3). set (nv := (p + 1) ^ 3). set (ne := m_num_elems m).
  destruct (equi_vertices p Z0 ltac:(lia)) as (Z & -> & HZ). cbn [bind].
  assert (HZ' : forall v, v < p + 1 -> vertex1 p v = Z v) by (intros; symmetry; auto).
  assert (Sep : separated (p + 1) Z) by (apply (separated_ext _ _ _ HZ'), vertex1_sep, Hp).
  destruct (constructor_ok p Z w0 (cube_small p Hp) Sep) as (el & Eel). rewrite Eel. cbn [bind].
  assert (K : constructed p Z w0 el) by (split; [exact Eel|split; [exact Sep|apply cube_small; exact Hp]]).
  destruct (lob_array p Hp) as (a & Ea & Ga). fold n1 in Ea, Ga. rewrite Ea. cbn [bind].
  assert (Cl : forall i, i < n1 -> clean (p + 1) Z (lob n1 i)) by (intros i Hi; apply (clean_ext _ _ _ _ HZ'), lob_clean; [exact Hp|exact Hi]).
  set (filledp := fun n (pts : list (option R)) => length pts = ne * ng * 3 /\ forall g d, g < n -> d < 3 -> nth_error pts (g * 3 + d) = Some (Some (gauss_pos p N X g d))).
  match goal with |- exists pts, bind (loop ?N ?B ?S0) _ = _ /\ _ => set (body := B); set (s0 := S0) end.
  assert (Main : exists s, loop ne body s0 = Ok s /\ let '(pts, _, _, _, _, _) := s in filledp (ne * ng) pts).
  { edestruct (loop_inv (fun e (s : list (option R) * list (option R) * list (option R) * list (option R) * (nat -> res R) * nat) =>
      let '(pts, vx, vy, vz, C, count) := s in filledp (e * ng) pts /\ length vx = nv /\ length vy = nv /\ length vz = nv /\ count = e * ng) ne body s0) as (s & Es & Hs).
    3:{ exists s. split; [exact Es|]. destruct s as (((((pts, vx), vy), vz), C), count). apply Hs. }
    - unfold s0, filledp. rewrite !repeat_length. repeat split; try lia. all: (intros; lia) || (intros; exfalso; cbn in *; lia) || idtac.
    - intros e (((((pts, vx), vy), vz), C), count) He (Fp & Lx & Ly & Lz & Ec). unfold body. cbn beta iota.
      destruct (vert_arrays_ok m nv N X nv (fun v => Ok v) (fun v => v) e vx vy vz HM He) as (vx' & vy' & vz' & Ev & Fx & Fy & Fz); try assumption; [intros; auto|].
      rewrite Ev. cbn [bind]. clear Ev vx vy vz Lx Ly Lz.
      edestruct (loop_inv (fun l (s : list (option R) * list (option R) * list (option R) * list (option R) * (nat -> res R) * nat) =>
         let '(pts, vx, vy, vz, C, count) := s in filledp (e * ng + l) pts /\ vx = vx' /\ vy = vy' /\ vz = vz' /\ count = e * ng + l) ng) as (s & Es & Hs).
      3:{ exists s. split; [exact Es|]. destruct s as (((((pts', vx), vy), vz), C'), count'). destruct Hs as (F & -> & -> & -> & Ec').
          replace (S e * ng) with (e * ng + ng) by lia. destruct Fx as (Fx & _), Fy as (Fy & _), Fz as (Fz & _). auto. }
      + rewrite Nat.add_0_r. auto.
      + intros l (((((pts1, wx), wy), wz), C1), count1) Hl (F1 & -> & -> & -> & ->). cbn beta iota.
        rewrite (ref_point_ok a n1 l (lob n1)) by (unfold n1; lia || exact Ga). cbn [bind].
        assert (Lt : forall d, grid n1 l d < n1) by (intros d; apply Nat.mod_upper_bound; unfold n1; lia).
        assert (Pos : forall d w, filled nv w (fun v => X (N e v) d) ->
          field3 (p + 1) Z (ptr w) (lob n1 (grid n1 l 0)) (lob n1 (grid n1 l 1)) (lob n1 (grid n1 l 2)) = gauss_pos p N X (e * ng + l) d).
        { intros d w Fw. unfold gauss_pos. cbv zeta. fold n1. fold ng. rewrite !grid_elem by (unfold n1; lia). unfold ng. rewrite loop_nat_split by exact Hl. unfold geo.
          apply field3_ext; [exact HZ|]. intros v Hv. exact (ptr_filled nv _ _ v Fw Hv). }
        destruct F1 as (L1 & G1). assert (Room : (e * ng + l) * 3 + 2 < ne * ng * 3) by nia.
        destruct (c_approx p Z w0 el K (ptr vx') _ _ _ C1 (Cl _ (Lt 0)) (Cl _ (Lt 1)) (Cl _ (Lt 2))) as (C2 & ->). cbn [bind].
        rewrite set_ok by lia. cbn [bind].
        destruct (c_approx p Z w0 el K (ptr vy') _ _ _ C2 (Cl _ (Lt 0)) (Cl _ (Lt 1)) (Cl _ (Lt 2))) as (C3 & ->). cbn [bind].
        rewrite set_ok by (rewrite upd_length; lia). cbn [bind].
        destruct (c_approx p Z w0 el K (ptr vz') _ _ _ C3 (Cl _ (Lt 0)) (Cl _ (Lt 1)) (Cl _ (Lt 2))) as (C4 & ->). cbn [bind].
        rewrite set_ok by (rewrite !upd_length; lia). cbn [bind].
        eexists. split; [reflexivity|]. cbn beta iota. split; [|repeat split; lia].
        rewrite (Pos 0 _ Fx), (Pos 1 _ Fy), (Pos 2 _ Fz). split; [rewrite !upd_length; exact L1|].
        intros g d Hg Hd. rewrite !upd_nth by (rewrite ?upd_length; lia).
        destruct (Nat.eq_dec g (e * ng + l)) as [->|].
        * assert (D : d = 0 \/ d = 1 \/ d = 2) by lia. destruct D as [-> | [-> | ->]];
          repeat match goal with |- context [(?u =? ?v)] => destruct (Nat.eqb_spec u v); try (exfalso; lia) end; reflexivity.
        * repeat match goal with |- context [(?u =? ?v)] => destruct (Nat.eqb_spec u v); try (exfalso; lia) end. apply G1; lia. }
  destruct Main as (s & Es & Hs). rewrite Es. destruct s as (((((pts, vx), vy), vz), C), count). cbn [bind].
  exists pts. split; [reflexivity|]. destruct Hs as (L & G). split; [exact L|].
  intros g d Hg Hd. apply getu_some, G; assumption.
Qed.
