(** Geometry of the order-p map: exactness, common faces, trilinear elements, boxes. *)
From Coq Require Import Reals List Arith NArith ZArith Lra Lia.
Import ListNotations.
Require Import Verif.Base Verif.RBase Verif.RSum Verif.Poly Verif.Spec_Lagrange Verif.Lagrange_Math Verif.Proof_LagElem
  Verif.Model_Quad Verif.Model_Vtk Verif.Model_High Verif.Spec_Quad Verif.Spec_High Verif.Proof_Lob Verif.Proof_Box Verif.Proof_High.
Local Open Scope nat_scope.

(** * the interpolant reproduces maps of degree < n in each variable *)
Lemma field3_nest n Z c x y z : field3 n Z c x y z =
  interp n Z (fun k => interp n Z (fun j => interp n Z (fun i => c (i + j * n + k * n * n)) x) y) z.
Proof.
  unfold field3, interp, phi3. apply rsum_ext. intros k Hk. rewrite <- rsum_scal_r. apply rsum_ext. intros j Hj.
  rewrite <- !rsum_scal_r. apply rsum_ext. intros i Hi. ring.
Qed.
Lemma field3_repro n Z (F : R -> R -> R -> R) c : distinct n Z ->
  (forall y z, poly_lt n (fun x => F x y z)) -> (forall x z, poly_lt n (fun y => F x y z)) -> (forall x y, poly_lt n (fun z => F x y z)) ->
  (forall i j k, i < n -> j < n -> k < n -> c (i + j * n + k * n * n) = F (Z i) (Z j) (Z k)) ->
  forall x y z, field3 n Z c x y z = F x y z.
Proof.
  intros D Px Py Pz Hc x y z. rewrite field3_nest.
  rewrite (interp_ext n Z _ (fun k => F x y (Z k))); [apply (interp_repro n Z (fun t => F x y t) D (Pz x y))|].
  intros k Hk. rewrite (interp_ext n Z _ (fun j => F x (Z j) (Z k))); [apply (interp_repro n Z (fun t => F x t (Z k)) D (Py x (Z k)))|].
  intros j Hj. rewrite (interp_ext n Z _ (fun i => F (Z i) (Z j) (Z k))); [apply (interp_repro n Z (fun t => F t (Z j) (Z k)) D (Px (Z j) (Z k)))|].
  intros i Hi. apply Hc; assumption.
Qed.
Lemma poly_affine n a b : 2 <= n -> poly_lt n (fun x => (a * x + b)%R).
Proof.
  intros H. apply (poly_mono 2); [exact H|]. apply (poly_ext 2 (fun x => ((a * x + b) * 1)%R)); [intros; ring|].
  apply (poly_mul_lin 1 (fun _ => 1%R)). apply poly_const. lia.
Qed.

Lemma separated_distinct n Z : separated n Z -> distinct n Z.
Proof. intros S i j Hi Hj N E. specialize (S i j Hi Hj N). rewrite E, Rminus_eq_0, Rabs_R0 in S. unfold tol in S. lra. Qed.
Lemma vertex1_distinct p : 1 <= p -> distinct (p + 1) (vertex1 p).
Proof.
  intros Hp i j Hi Hj N E. unfold vertex1 in E. assert (P : (0 < INR p)%R) by (apply lt_0_INR; lia).
  apply N, INR_eq. apply (Rmult_eq_reg_r (/ INR p)); [unfold Rdiv in E; lra|]. apply Rinv_neq_0_compat. lra.
Qed.
Lemma vertex1_0 p : vertex1 p 0 = (-1)%R.
Proof. unfold vertex1. cbn [INR]. unfold Rdiv. ring. Qed.
Lemma vertex1_p p : 1 <= p -> vertex1 p p = 1%R.
Proof. intros H. unfold vertex1. field. apply not_0_INR. lia. Qed.

(** * Gauss points by element and grid position *)
Lemma grid_at n i j k : i < n -> j < n -> k < n ->
  grid n (i + j * n + k * n * n) 0 = i /\ grid n (i + j * n + k * n * n) 1 = j /\ grid n (i + j * n + k * n * n) 2 = k.
Proof.
  intros Hi Hj Hk. unfold grid. rewrite Nat.pow_0_r, Nat.div_1_r, Nat.pow_1_r.
  replace (i + j * n + k * n * n) with ((j + k * n) * n + i) by ring. split; [|split].
  - rewrite Nat.add_comm, Nat.mod_add by lia. apply Nat.mod_small; exact Hi.
  - rewrite Nat.div_add_l by lia. rewrite (Nat.div_small i) by exact Hi. rewrite Nat.add_0_r, Nat.mod_add by lia. apply Nat.mod_small; exact Hj.
  - replace (n ^ 2) with (n * n) by (cbn [Nat.pow]; ring). rewrite <- Nat.div_div by lia.
    rewrite Nat.div_add_l by lia. rewrite (Nat.div_small i) by exact Hi. rewrite Nat.add_0_r, Nat.div_add by lia. rewrite (Nat.div_small j) by exact Hj. apply Nat.mod_small; exact Hk.
Qed.
Lemma gauss_pos_at p N X e i j k d : let n1 := 2 * p + 1 in i < n1 -> j < n1 -> k < n1 ->
  gauss_pos p N X (e * n1 ^ 3 + (i + j * n1 + k * n1 * n1)) d = geo p N X e d (lob n1 i) (lob n1 j) (lob n1 k).
Proof.
  intros n1 Hi Hj Hk. unfold gauss_pos. cbv zeta. fold n1.
  assert (L : i + j * n1 + k * n1 * n1 < n1 ^ 3) by (apply grid3_lt; assumption).
  rewrite loop_nat_split by exact L. rewrite !grid_elem by lia. destruct (grid_at n1 i j k Hi Hj Hk) as (-> & -> & ->). reflexivity.
Qed.
Lemma gauss_split n1 ne g : 0 < n1 -> g < ne * n1 ^ 3 -> exists e i j k, e < ne /\ i < n1 /\ j < n1 /\ k < n1 /\ g = e * n1 ^ 3 + (i + j * n1 + k * n1 * n1).
Proof.
  intros Hn Hg. assert (P3 : 0 < n1 ^ 3) by (apply Nat.neq_0_lt_0, Nat.pow_nonzero; lia). exists (g / n1 ^ 3). set (l := g mod n1 ^ 3).
  assert (Hl : l < n1 ^ 3) by (apply Nat.mod_upper_bound; lia).
  exists (l mod n1), (l / n1 mod n1), (l / n1 / n1).
  split; [apply Nat.div_lt_upper_bound; lia|]. split; [apply Nat.mod_upper_bound; lia|]. split; [apply Nat.mod_upper_bound; lia|].
  split. { apply Nat.div_lt_upper_bound; [lia|]. apply Nat.div_lt_upper_bound; [lia|]. cbn [Nat.pow] in Hl. lia. }
  rewrite (Nat.div_mod g (n1 ^ 3)) at 1 by lia. fold l. rewrite (Nat.div_mod l n1) at 1 by lia. rewrite (Nat.div_mod (l / n1) n1) at 1 by lia. ring.
Qed.

(** * common faces *)
Lemma geo_vertex_x p N X e d i y z : 1 <= p -> i <= p ->
  geo p N X e d (vertex1 p i) y z = interp (p + 1) (vertex1 p) (fun k => interp (p + 1) (vertex1 p) (fun j => X (N e (at3 (p + 1) 0 i j k)) d) y) z.
Proof.
  intros Hp Hi. unfold geo. rewrite field3_nest. apply interp_ext. intros k Hk. apply interp_ext. intros j Hj.
  rewrite (interp_node _ _ (fun i => X (N e (i + j * (p + 1) + k * (p + 1) * (p + 1))) d)) by (try (apply vertex1_distinct); lia). reflexivity.
Qed.
Lemma geo_vertex_y p N X e d j x z : 1 <= p -> j <= p ->
  geo p N X e d x (vertex1 p j) z = interp (p + 1) (vertex1 p) (fun k => interp (p + 1) (vertex1 p) (fun i => X (N e (at3 (p + 1) 1 j i k)) d) x) z.
Proof.
  intros Hp Hj. unfold geo. rewrite field3_nest. apply interp_ext. intros k Hk.
  rewrite (interp_node _ _ (fun j => interp (p + 1) (vertex1 p) (fun i => X (N e (i + j * (p + 1) + k * (p + 1) * (p + 1))) d) x)) by (try (apply vertex1_distinct); lia). reflexivity.
Qed.
Lemma geo_vertex_z p N X e d k x y : 1 <= p -> k <= p ->
  geo p N X e d x y (vertex1 p k) = interp (p + 1) (vertex1 p) (fun j => interp (p + 1) (vertex1 p) (fun i => X (N e (at3 (p + 1) 2 k i j)) d) x) y.
Proof.
  intros Hp Hk. unfold geo. rewrite field3_nest.
  rewrite (interp_node _ _ (fun k => interp (p + 1) (vertex1 p) (fun j => interp (p + 1) (vertex1 p) (fun i => X (N e (i + j * (p + 1) + k * (p + 1) * (p + 1))) d) x) y)) by (try (apply vertex1_distinct); lia). reflexivity.
Qed.

Lemma face_points p N X D e e' a b d : 1 <= p <= 9 -> D < 3 -> adjacent p N D e e' -> a <= 2 * p -> b <= 2 * p ->
  let n1 := 2 * p + 1 in
  gauss_pos p N X (e * n1 ^ 3 + at3 n1 D (2 * p) a b) d = gauss_pos p N X (e' * n1 ^ 3 + at3 n1 D 0 a b) d.
Proof.
  intros Hp HD A Ha Hb n1. destruct (lob_facts_ok p Hp) as (_ & _ & L0 & L1). fold n1 in L0, L1.
  assert (V0 := vertex1_0 p). assert (V1 := vertex1_p p ltac:(lia)).
  assert (HD' : D = 0 \/ D = 1 \/ D = 2) by lia. destruct HD' as [-> | [-> | ->]]; cbn [at3].
  - rewrite !(gauss_pos_at p N X) by lia. fold n1. rewrite L0, L1, <- V0, <- V1, !geo_vertex_x by lia.
    apply interp_ext. intros k Hk. apply interp_ext. intros j Hj. rewrite A by lia. reflexivity.
  - rewrite !(gauss_pos_at p N X) by lia. fold n1. rewrite L0, L1, <- V0, <- V1, !geo_vertex_y by lia.
    apply interp_ext. intros k Hk. apply interp_ext. intros j Hj. rewrite A by lia. reflexivity.
  - rewrite !(gauss_pos_at p N X) by lia. fold n1. rewrite L0, L1, <- V0, <- V1, !geo_vertex_z by lia.
    apply interp_ext. intros k Hk. apply interp_ext. intros j Hj. rewrite A by lia. reflexivity.
Qed.

(** * trilinear elements stay inside the range of their vertices *)
Lemma interp2_between (c : nat -> R) lo hi x : (-1 <= x <= 1)%R -> (forall i, i < 2 -> (lo <= c i <= hi)%R) -> (lo <= interp 2 (vertex1 1) c x <= hi)%R.
Proof.
  intros Hx Hc. assert (C0 := Hc 0 ltac:(lia)). assert (C1 := Hc 1 ltac:(lia)).
  assert (E : (interp 2 (vertex1 1) c x = c 0%nat * ((1 - x) / 2) + c 1%nat * ((1 + x) / 2))%R).
  { unfold interp, ell, vertex1. cbn. field. }
  rewrite E. nra.
Qed.
Lemma exists_min n (f : nat -> R) : 0 < n -> exists a, a < n /\ forall i, i < n -> (f a <= f i)%R.
Proof.
  induction n as [|n IH]; intros H; [lia|]. destruct (Nat.eq_dec n 0) as [->|]; [exists 0; split; [lia|]; intros i Hi; replace i with 0 by lia; lra|].
  destruct IH as (a & Ha & Q); [lia|]. destruct (Rle_dec (f a) (f n)) as [L|L].
  - exists a. split; [lia|]. intros i Hi. destruct (Nat.eq_dec i n) as [->|]; [exact L|apply Q; lia].
  - exists n. split; [lia|]. intros i Hi. destruct (Nat.eq_dec i n) as [->|]; [lra|]. specialize (Q i ltac:(lia)). lra.
Qed.
Lemma exists_max n (f : nat -> R) : 0 < n -> exists a, a < n /\ forall i, i < n -> (f i <= f a)%R.
Proof. intros H. destruct (exists_min n (fun i => (- f i)%R) H) as (a & Ha & Q). exists a. split; [exact Ha|]. intros i Hi. specialize (Q i Hi). lra. Qed.

Lemma trilinear_in_range m N X g : m_order m = 1 -> describes m 8 N X -> g < m_num_elems m * 27 ->
  in_range (m_num_nodes m) X (gauss_pos 1 N X g).
Proof.
  intros Ho (HN & _) Hg d Hd.
  destruct (gauss_split 3 (m_num_elems m) g ltac:(lia) ltac:(cbn [Nat.pow]; lia)) as (e & i & j & k & He & Hi & Hj & Hk & ->).
  assert (Lp := gauss_pos_at 1 N X e i j k d ltac:(lia) ltac:(lia) ltac:(lia)). cbv zeta in Lp. change (2 * 1 + 1) with 3 in Lp. rewrite Lp. clear Lp.
  destruct (exists_min 8 (fun v => X (N e v) d) ltac:(lia)) as (a & Ha & Qa). destruct (exists_max 8 (fun v => X (N e v) d) ltac:(lia)) as (b & Hb & Qb).
  exists (N e a), (N e b). destruct (HN e a He Ha) as (_ & Ba). destruct (HN e b He Hb) as (_ & Bb). split; [exact Ba|]. split; [exact Bb|].
  unfold geo. rewrite field3_nest. change (1 + 1) with 2.
  assert (Rg : forall i, i < 3 -> (-1 <= lob 3 i <= 1)%R) by (intros; apply lob_range; lia).
  apply interp2_between; [apply Rg; exact Hk|]. intros k' Hk'. apply interp2_between; [apply Rg; exact Hj|]. intros j' Hj'. apply interp2_between; [apply Rg; exact Hi|]. intros i' Hi'.
  split; [apply Qa|apply Qb]; nia.
Qed.

(** * box elements *)
Lemma box_geo p ne N X o s E e x y z : 1 <= p -> box_elements p ne N X o s E -> e < ne ->
  geo p N X e 0 x y z = (o 0%nat + s 0%nat * (IZR (E e 0%nat) + (x + 1) / 2))%R /\
  geo p N X e 1 x y z = (o 1%nat + s 1%nat * (IZR (E e 1%nat) + (y + 1) / 2))%R /\
  geo p N X e 2 x y z = (o 2%nat + s 2%nat * (IZR (E e 2%nat) + (z + 1) / 2))%R.
Proof.
  intros Hp B He. assert (D := vertex1_distinct p Hp). assert (P : (INR p <> 0)%R) by (apply not_0_INR; lia).
  assert (V : forall i, ((vertex1 p i + 1) / 2 = INR i / INR p)%R) by (intros i; unfold vertex1; field; exact P).
  assert (A : forall u t, poly_lt (p + 1) (fun x : R => (u + t * (x + 1) / 2)%R)).
  { intros u t. apply (poly_ext _ (fun x => (t / 2 * x + (u + t / 2))%R)); [intros; field|apply poly_affine; lia]. }
  split; [|split].
  - apply (field3_repro (p + 1) (vertex1 p) (fun x y z => o 0%nat + s 0%nat * (IZR (E e 0%nat) + (x + 1) / 2))%R _ D).
    + intros _ _. apply (poly_ext _ (fun x => ((o 0%nat + s 0%nat * IZR (E e 0%nat)) + s 0%nat * (x + 1) / 2)%R)); [intros; field|apply A].
    + intros. apply poly_const. lia.
    + intros. apply poly_const. lia.
    + intros i j k Hi Hj Hk. rewrite V. apply (B e i j k He); lia.
  - apply (field3_repro (p + 1) (vertex1 p) (fun x y z => o 1%nat + s 1%nat * (IZR (E e 1%nat) + (y + 1) / 2))%R _ D).
    + intros. apply poly_const. lia.
    + intros _ _. apply (poly_ext _ (fun x => ((o 1%nat + s 1%nat * IZR (E e 1%nat)) + s 1%nat * (x + 1) / 2)%R)); [intros; field|apply A].
    + intros. apply poly_const. lia.
    + intros i j k Hi Hj Hk. rewrite V. apply (B e i j k He); lia.
  - apply (field3_repro (p + 1) (vertex1 p) (fun x y z => o 2%nat + s 2%nat * (IZR (E e 2%nat) + (z + 1) / 2))%R _ D).
    + intros. apply poly_const. lia.
    + intros. apply poly_const. lia.
    + intros _ _. apply (poly_ext _ (fun x => ((o 2%nat + s 2%nat * IZR (E e 2%nat)) + s 2%nat * (x + 1) / 2)%R)); [intros; field|apply A].
    + intros i j k Hi Hj Hk. rewrite V. apply (B e i j k He); lia.
Qed.

(** box position of a Gauss point: integer part plus Lobatto fraction *)
Lemma box_pos p ne N X o s E g : 1 <= p -> box_elements p ne N X o s E -> g < ne * (2 * p + 1) ^ 3 ->
  exists e (i : nat -> nat), e < ne /\ (forall d, d < 3 -> i d < 2 * p + 1) /\
    forall d, d < 3 -> gauss_pos p N X g d = (o d + s d * (IZR (E e d) + (lob (2 * p + 1) (i d) + 1) / 2))%R.
Proof.
  intros Hp B Hg. destruct (gauss_split (2 * p + 1) ne g ltac:(lia) Hg) as (e & i & j & k & He & Hi & Hj & Hk & ->).
  exists e, (fun d => match d with 0 => i | 1 => j | _ => k end). split; [exact He|]. split; [intros [|[|d]] _; assumption|].
  intros d Hd. rewrite gauss_pos_at by assumption. destruct (box_geo p ne N X o s E e (lob (2 * p + 1) i) (lob (2 * p + 1) j) (lob (2 * p + 1) k) Hp B He) as (Q0 & Q1 & Q2).
  destruct d as [|[|[|d]]]; [exact Q0|exact Q1|exact Q2|lia].
Qed.

(** two Lobatto fractions shifted by integers coincide or differ by a gap *)
Lemma lob_gap p i j : 1 <= p <= 9 -> i < j < 2 * p + 1 -> (2 / (7 * INR p * INR p) <= lob (2 * p + 1) j - lob (2 * p + 1) i)%R.
Proof.
  intros Hp Hij. destruct (lob_facts_ok p Hp) as (G & _). assert (Pp : (0 < INR p)%R) by (apply lt_0_INR; lia).
  assert (Q : (0 < 2 / (7 * INR p * INR p))%R) by (apply Rdiv_lt_0_compat; nra).
  destruct Hij as (H1 & H2). induction j as [|j IH]; [lia|]. specialize (G j H2). destruct (Nat.eq_dec i j) as [->|]; [exact G|]. specialize (IH ltac:(lia) ltac:(lia)). lra.
Qed.
Lemma frac_apart p (u v : Z) i j : 1 <= p <= 9 -> i < 2 * p + 1 -> j < 2 * p + 1 -> let x := fun w q => (IZR w + (lob (2 * p + 1) q + 1) / 2)%R in
  x u i = x v j \/ (/ (7 * INR p * INR p) <= Rabs (x u i - x v j))%R.
Proof.
  intros Hp Hi Hj x. assert (Pp : (0 < INR p)%R) by (apply lt_0_INR; lia). set (q := (/ (7 * INR p * INR p))%R).
  assert (G2 : (2 / (7 * INR p * INR p) = 2 * q)%R) by reflexivity.
  assert (Q : (0 < q)%R) by (apply Rinv_0_lt_compat; nra).
  destruct (lob_facts_ok p Hp) as (_ & _ & L0 & L1).
  assert (Gap : forall a b, a < b < 2 * p + 1 -> (2 * q <= lob (2 * p + 1) b - lob (2 * p + 1) a)%R) by (intros a b Hab; rewrite <- G2; apply lob_gap; assumption).
  assert (Lo : forall a, a < 2 * p + 1 -> lob (2 * p + 1) a = (-1)%R \/ (2 * q - 1 <= lob (2 * p + 1) a)%R).
  { intros a Ha. destruct (Nat.eq_dec a 0) as [->|]; [left; exact L0|right]. specialize (Gap 0 a ltac:(lia)). lra. }
  assert (Hi' : forall a, a < 2 * p + 1 -> lob (2 * p + 1) a = 1%R \/ (lob (2 * p + 1) a <= 1 - 2 * q)%R).
  { intros a Ha. destruct (Nat.eq_dec a (2 * p)) as [->|]; [left; exact L1|right]. specialize (Gap a (2 * p) ltac:(lia)). lra. }
  assert (Rg : forall a, a < 2 * p + 1 -> (-1 <= lob (2 * p + 1) a <= 1)%R) by (intros; apply lob_range; lia).
  assert (W : forall u v i j, i < 2 * p + 1 -> j < 2 * p + 1 -> (u < v)%Z -> x u i = x v j \/ (q <= Rabs (x u i - x v j))%R).
  { intros u' v' i' j' Hi1 Hj1 Huv. assert (U : (IZR u' + 1 <= IZR v')%R) by (rewrite <- plus_IZR; apply IZR_le; lia).
    assert (R1 := Rg i' Hi1). assert (R2 := Rg j' Hj1). unfold x. destruct (Hi' i' Hi1) as [E1|E1]; [|right; rewrite Rabs_left1; lra].
    destruct (Lo j' Hj1) as [E2|E2]; [|right; rewrite Rabs_left1; lra].
    rewrite E1, E2. destruct (Z.eq_dec v' (u' + 1)) as [->|]; [left; rewrite plus_IZR; lra|]. assert (U2 : (IZR u' + 2 <= IZR v')%R) by (rewrite <- plus_IZR; apply IZR_le; lia).
    right. assert (q < 1)%R.
    { specialize (Gap 0 (2 * p) ltac:(lia)). assert (1 <= p) by lia. assert (P1 : (1 <= INR p)%R) by (replace 1%R with (INR 1) by reflexivity; apply le_INR; lia).
      unfold q. rewrite <- Rinv_1. apply Rinv_lt_contravar; nra. }
    rewrite Rabs_left1; lra. }
  destruct (Z.lt_trichotomy u v) as [H|[->|H]].
  - apply W; assumption.
  - destruct (Nat.lt_trichotomy i j) as [H|[->|H]]; [right|left; reflexivity|right]; unfold x.
    + specialize (Gap i j ltac:(lia)). rewrite Rabs_left1; lra.
    + specialize (Gap j i ltac:(lia)). rewrite Rabs_right; lra.
  - destruct (W v u j i Hj Hi H) as [Q'|Q']; [left; symmetry; exact Q'|right; rewrite Rabs_minus_sym; exact Q'].
Qed.

Lemma box_least p ne N X o s E : 1 <= p -> 0 < ne -> box_elements p ne N X o s E -> (0 < s 0%nat)%R -> least_planar p ne N X (s 0%nat / INR p)%R.
Proof.
  intros Hp Hne B Hs. assert (Pp : (0 < INR p)%R) by (apply lt_0_INR; lia).
  assert (Pl : forall e i j, e < ne -> j < i <= p -> planar X (N e j) (N e i) = (s 0%nat * (INR i - INR j) / INR p)%R).
  { intros e i j He Hij. destruct (B e i 0 0 He ltac:(lia) ltac:(lia) ltac:(lia)) as (A0 & A1 & _). destruct (B e j 0 0 He ltac:(lia) ltac:(lia) ltac:(lia)) as (C0 & C1 & _).
    rewrite !Nat.mul_0_l, !Nat.add_0_r in A0, A1, C0, C1. unfold planar. rewrite A0, A1, C0, C1.
    replace ((o 0%nat + s 0%nat * (IZR (E e 0%nat) + INR i / INR p) - (o 0%nat + s 0%nat * (IZR (E e 0%nat) + INR j / INR p))) ^ 2 +
      (o 1%nat + s 1%nat * (IZR (E e 1%nat) + INR 0 / INR p) - (o 1%nat + s 1%nat * (IZR (E e 1%nat) + INR 0 / INR p))) ^ 2)%R with ((s 0%nat * (INR i - INR j) / INR p) ^ 2)%R by (field; lra).
    apply sqrt_pow2. assert (INR j < INR i)%R by (apply lt_INR; lia). apply Rmult_le_pos; [nra|]. left. apply Rinv_0_lt_compat. exact Pp. }
  split.
  - intros e i j He Hij. rewrite Pl by assumption. unfold Rdiv. apply Rmult_le_compat_r; [left; apply Rinv_0_lt_compat; exact Pp|].
    assert (INR j + 1 <= INR i)%R by (rewrite <- S_INR; apply le_INR; lia). nra.
  - exists 0, 1, 0. split; [exact Hne|]. split; [lia|]. rewrite Pl by lia. cbn [INR]. field. lra.
Qed.
Lemma box_in_range m N X o s E g : let p := m_order m in 1 <= p <= 9 -> describes m ((p + 1) ^ 3) N X -> box_elements p (m_num_elems m) N X o s E ->
  (forall d, d < 3 -> (0 < s d)%R) -> g < m_num_elems m * (2 * p + 1) ^ 3 -> in_range (m_num_nodes m) X (gauss_pos p N X g).
Proof.
  intros p Hp (HN & _) B Hs Hg d Hd. destruct (box_pos p _ N X o s E g ltac:(lia) B Hg) as (e & i & He & Hi & ->); [|exact Hd].
  assert (Rl := lob_range (2 * p + 1) (i d) ltac:(lia) (Hi d Hd)). specialize (Hs d Hd).
  assert (Pp : (INR p <> 0)%R) by (apply not_0_INR; lia).
  exists (N e 0), (N e (p + p * (p + 1) + p * (p + 1) * (p + 1))).
  assert (L : p + p * (p + 1) + p * (p + 1) * (p + 1) < (p + 1) ^ 3) by (apply grid3_lt; lia).
  destruct (HN e 0 He ltac:(lia)) as (_ & Ha). destruct (HN e _ He L) as (_ & Hb). split; [exact Ha|]. split; [exact Hb|].
  destruct (B e 0 0 0 He ltac:(lia) ltac:(lia) ltac:(lia)) as (A0 & A1 & A2). destruct (B e p p p He (le_n _) (le_n _) (le_n _)) as (C0 & C1 & C2).
  assert (Pd : (INR p / INR p = 1)%R) by (field; exact Pp). rewrite Pd in C0, C1, C2. cbn [INR] in A0, A1, A2. unfold Rdiv in A0, A1, A2. rewrite Rmult_0_l in A0, A1, A2. cbn [Nat.mul Nat.add] in A0, A1, A2.
  destruct d as [|[|[|d]]]; [rewrite A0, C0|rewrite A1, C1|rewrite A2, C2|lia]; nra.
Qed.
Lemma box_apart p ne N X o s E g g' : 1 <= p <= 9 -> box_elements p ne N X o s E -> (0 < s 0%nat)%R -> (forall d, d < 3 -> (s 0%nat <= s d)%R) ->
  g < ne * (2 * p + 1) ^ 3 -> g' < ne * (2 * p + 1) ^ 3 -> forall d, d < 3 ->
  gauss_pos p N X g d = gauss_pos p N X g' d \/ (s 0%nat / INR p / (7 * INR p) <= Rabs (gauss_pos p N X g d - gauss_pos p N X g' d))%R.
Proof.
  intros Hp B Hs0 Hs Hg Hg' d Hd. assert (Pp : (0 < INR p)%R) by (apply lt_0_INR; lia).
  destruct (box_pos p _ N X o s E g ltac:(lia) B Hg) as (e & i & He & Hi & ->); [|exact Hd]. destruct (box_pos p _ N X o s E g' ltac:(lia) B Hg') as (e' & i' & He' & Hi' & ->); [|exact Hd].
  specialize (Hs d Hd). destruct (frac_apart p (E e d) (E e' d) (i d) (i' d) Hp (Hi d Hd) (Hi' d Hd)) as [Q|Q]; cbv zeta in Q; [left; rewrite Q; reflexivity|right].
  set (u := (IZR (E e d) + (lob (2 * p + 1) (i d) + 1) / 2)%R) in *. set (v := (IZR (E e' d) + (lob (2 * p + 1) (i' d) + 1) / 2)%R) in *.
  replace (o d + s d * u - (o d + s d * v))%R with (s d * (u - v))%R by ring. rewrite Rabs_mult, (Rabs_right (s d)) by lra.
  assert (K : (s 0%nat / INR p / (7 * INR p) = s 0%nat * / (7 * INR p * INR p))%R) by (field; lra). rewrite K.
  assert (0 < / (7 * INR p * INR p))%R by (apply Rinv_0_lt_compat; nra). apply Rmult_le_compat; lra.
Qed.
