(** Refinement in rounded arithmetic: points on corners, edges and faces. *)
From Coq Require Import Reals List Arith ZArith Lra Lia.
Import ListNotations.
Require Import Verif.Base Verif.RBase Verif.Model_Geom Verif.Spec_Quad Verif.Spec_High Verif.Proof_High Verif.Proof_High2 Verif.Proof_High3 Verif.Model_Full Verif.Spec_Full Verif.Proof_Full
  Verif.Spec_Float Verif.Float_Base Verif.Model_FloatRefine Verif.Spec_FloatRefine Verif.Proof_FloatRefine.
Local Open Scope R_scope.

(** the reference coordinate of end s (0 or 1) of a direction *)
Definition sgn (s : nat) : R := match s with O => -1 | _ => 1 end.
(** the reference point with e in direction D and a, b in the other two *)
Definition place3 (D : nat) (e a b : R) : nat -> R :=
  match D with
  | O => fun d => match d with O => e | 1%nat => a | _ => b end
  | 1%nat => fun d => match d with O => a | 1%nat => e | _ => b end
  | _ => fun d => match d with O => a | 1%nat => b | _ => e end
  end.

Section P.
Context (u : R) (rnd : R -> R).
Hypothesis HD : double_like u rnd.
Let d0 := dl_0 u rnd HD.
Let didem := dl_idem u rnd HD.
Let dopp := dl_opp u rnd HD.
Let dtwo := dl_two u rnd HD.

Definition fac (q : R) (s : nat) : R := rnd (1 + rnd (q * sgn s)).
Lemma fac_idem q s : rnd (fac q s) = fac q s.
Proof. apply didem. Qed.
Lemma fac_end t s : (t < 2)%nat -> (s < 2)%nat -> fac (sgn t) s = if Nat.eqb t s then 2 else 0.
Proof.
  intros Ht Hs. unfold fac. destruct t as [|[|t]]; [| |lia]; destruct s as [|[|s]]; try lia; cbn [sgn Nat.eqb].
  - replace (-1 * -1) with 1 by ring. rewrite (dl_1 u rnd HD). replace (1 + 1) with 2 by ring. exact dtwo.
  - replace (-1 * 1) with (-1) by ring. rewrite (dl_m1 u rnd HD). replace (1 + -1) with 0 by ring. exact d0.
  - replace (1 * -1) with (-1) by ring. rewrite (dl_m1 u rnd HD). replace (1 + -1) with 0 by ring. exact d0.
  - replace (1 * 1) with 1 by ring. rewrite (dl_1 u rnd HD). replace (1 + 1) with 2 by ring. exact dtwo.
Qed.
Lemma fac_opp q s : (s < 2)%nat -> fac (- q) s = fac q (1 - s).
Proof. intros Hs. unfold fac. destruct s as [|[|s]]; [| |lia]; cbn [sgn Nat.sub]; f_equal; f_equal; f_equal; ring. Qed.

Definition bas (f0 f1 f2 : R) : R := rnd (rnd (rnd (rnd (1 / 8) * f0) * f1) * f2).
Lemma basis_bits q i j k : (i < 2)%nat -> (j < 2)%nat -> (k < 2)%nat ->
  tri_basisf rnd q (i + j * 2 + k * 2 * 2) = bas (fac (q 0%nat) i) (fac (q 1%nat) j) (fac (q 2%nat) k).
Proof. intros Hi Hj Hk. destruct i as [|[|i]]; [| |lia]; destruct j as [|[|j]]; try lia; destruct k as [|[|k]]; try lia; reflexivity. Qed.
Lemma eighth : rnd (1 / 8) = 1 / 8.
Proof. rewrite (dl_eighth u rnd HD), (dl_1 u rnd HD). reflexivity. Qed.
Lemma bas_0 f0 f1 f2 : f0 = 0 \/ f1 = 0 \/ f2 = 0 -> bas f0 f1 f2 = 0.
Proof. intros [-> | [-> | ->]]; unfold bas; rewrite ?Rmult_0_r, ?d0, ?Rmult_0_l, ?d0, ?Rmult_0_l, ?d0; reflexivity. Qed.
Lemma q4 x : rnd (x / 4) = rnd x / 4.
Proof. exact (dl_quarter u rnd HD x). Qed.
Lemma q8 x : rnd (x / 8) = rnd x / 8.
Proof. exact (dl_eighth u rnd HD x). Qed.
Lemma bas_x a b : rnd a = a -> bas 2 a b = rnd (a * b) / 4.
Proof.
  intros Ha. unfold bas. rewrite eighth. replace (1 / 8 * 2) with (1 / 4) by field. rewrite q4, (dl_1 u rnd HD).
  replace (1 / 4 * a) with (a / 4) by field. rewrite q4, Ha. replace (a / 4 * b) with (a * b / 4) by field. apply q4.
Qed.
Lemma bas_y a b : rnd a = a -> bas a 2 b = rnd (a * b) / 4.
Proof.
  intros Ha. unfold bas. rewrite eighth. replace (1 / 8 * a) with (a / 8) by field. rewrite q8, Ha.
  replace (a / 8 * 2) with (a / 4) by field. rewrite q4, Ha. replace (a / 4 * b) with (a * b / 4) by field. apply q4.
Qed.
Lemma bas_z a b : rnd a = a -> bas a b 2 = rnd (a * b) / 4.
Proof.
  intros Ha. unfold bas. rewrite eighth. replace (1 / 8 * a) with (a / 8) by field. rewrite q8, Ha.
  replace (a / 8 * b) with (a * b / 8) by field. rewrite q8. replace (rnd (a * b) / 8 * 2) with (rnd (a * b) / 4) by field. rewrite q4, didem. reflexivity.
Qed.

(** value on a face: four terms, added in the order of the vertices *)
Definition face_term (qa qb : R) (x : nat -> nat -> R) (a b : nat) : R := rnd (rnd (fac qa a * fac qb b) / 4 * x a b).
Definition face_val (qa qb : R) (x : nat -> nat -> R) : R :=
  rnd (rnd (rnd (face_term qa qb x 0 0 + face_term qa qb x 1 0) + face_term qa qb x 0 1) + face_term qa qb x 1 1).

Lemma mapf_8 init q : tri_mapf rnd init q =
  rnd (rnd (rnd (rnd (rnd (rnd (rnd (rnd (0 + rnd (tri_basisf rnd q 0 * init 0%nat)) + rnd (tri_basisf rnd q 1 * init 1%nat)) + rnd (tri_basisf rnd q 2 * init 2%nat)) + rnd (tri_basisf rnd q 3 * init 3%nat))
   + rnd (tri_basisf rnd q 4 * init 4%nat)) + rnd (tri_basisf rnd q 5 * init 5%nat)) + rnd (tri_basisf rnd q 6 * init 6%nat)) + rnd (tri_basisf rnd q 7 * init 7%nat)).
Proof. reflexivity. Qed.
Lemma basis_8 q v : (v < 8)%nat -> tri_basisf rnd q v = bas (fac (q 0%nat) (v mod 2)) (fac (q 1%nat) (v / 2 mod 2)) (fac (q 2%nat) (v / 4)).
Proof. intros H. do 8 (destruct v as [|v]; [reflexivity|]). lia. Qed.

Lemma face_value D s qa qb init : (D < 3)%nat -> (s < 2)%nat ->
  tri_mapf rnd init (place3 D (sgn s) qa qb) = face_val qa qb (fun a b => init (at3 2 D s a b)).
Proof.
  intros HD3 Hs. rewrite mapf_8, !basis_8 by lia.
  assert (E : forall t, (t < 2)%nat -> fac (sgn s) t = if Nat.eqb s t then 2 else 0) by (intros t Ht; apply fac_end; assumption).
  assert (E0 := E 0%nat ltac:(lia)). assert (E1 := E 1%nat ltac:(lia)). clear E.
  unfold face_val, face_term.
  destruct D as [|[|[|D]]]; [| | |lia]; cbn [place3];
  cbn [Nat.modulo Nat.div Nat.divmod fst snd Nat.sub];
  (destruct s as [|[|s]]; [| |lia]; cbn [Nat.eqb] in E0, E1; rewrite E0, E1; clear E0 E1; cbn [at3 Nat.add Nat.mul]);
  rewrite ?(bas_x _ _ (fac_idem _ _)), ?(bas_y _ _ (fac_idem _ _)), ?(bas_z _ _ (fac_idem _ _));
  rewrite ?(bas_0 0) by auto; rewrite ?(bas_0 _ 0) by auto; rewrite ?(bas_0 _ _ 0) by auto;
  rewrite ?Rmult_0_l, ?d0, ?Rplus_0_r, ?Rplus_0_l, ?d0, ?Rplus_0_l, ?didem; reflexivity.
Qed.

(** value on an edge: two terms *)
Definition edge_term (q : R) (x : nat -> R) (a : nat) : R := rnd (fac q a / 2 * x a).
Definition edge_val (q : R) (x : nat -> R) : R := rnd (edge_term q x 0 + edge_term q x 1).
Lemma edge_sym q x y : (forall a, (a < 2)%nat -> x a = y (1 - a)%nat) -> edge_val q x = edge_val (- q) y.
Proof.
  intros H. unfold edge_val, edge_term. rewrite !fac_opp by lia. rewrite (H 0%nat), (H 1%nat) by lia. cbn [Nat.sub]. rewrite Rplus_comm. reflexivity.
Qed.
Lemma face_edge_a q t x : (t < 2)%nat -> face_val (sgn t) q x = edge_val q (fun a => x t a).
Proof.
  intros Ht. unfold face_val, face_term. rewrite !fac_end by lia. unfold edge_val, edge_term.
  destruct t as [|[|t]]; [| |lia]; cbn [Nat.eqb]; rewrite ?(dl_2 u rnd HD), ?fac_idem, ?Rmult_0_l, ?d0;
  replace (0 / 4) with 0 by field; rewrite ?Rmult_0_l, ?d0, ?Rplus_0_r, ?Rplus_0_l, ?didem;
  replace (2 * fac q 0 / 4) with (fac q 0 / 2) by field; replace (2 * fac q 1 / 4) with (fac q 1 / 2) by field; reflexivity.
Qed.
Lemma face_edge_b q t x : (t < 2)%nat -> face_val q (sgn t) x = edge_val q (fun a => x a t).
Proof.
  intros Ht. unfold face_val, face_term. rewrite !fac_end by lia. unfold edge_val, edge_term.
  destruct t as [|[|t]]; [| |lia]; cbn [Nat.eqb]; rewrite ?(Rmult_comm _ 2), ?(dl_2 u rnd HD), ?fac_idem, ?Rmult_0_r, ?d0;
  replace (0 / 4) with 0 by field; rewrite ?Rmult_0_l, ?d0, ?Rplus_0_r, ?Rplus_0_l, ?d0, ?Rplus_0_l, ?didem;
  replace (2 * fac q 0 / 4) with (fac q 0 / 2) by field; replace (2 * fac q 1 / 4) with (fac q 1 / 2) by field; reflexivity.
Qed.
Lemma place3_ext init D e a b D' e' a' b' : (forall d, (d < 3)%nat -> place3 D e a b d = place3 D' e' a' b' d) -> tri_mapf rnd init (place3 D e a b) = tri_mapf rnd init (place3 D' e' a' b').
Proof. intros H. apply tri_mapf_ext; [reflexivity|exact H]. Qed.
Lemma edge_value D s t q init : (D < 3)%nat -> (s < 2)%nat -> (t < 2)%nat ->
  tri_mapf rnd init (place3 D q (sgn s) (sgn t)) = edge_val q (fun a => init (at3 2 D a s t)).
Proof.
  intros HD3 Hs Ht. destruct D as [|[|[|D]]]; [| | |lia].
  - rewrite (place3_ext _ _ _ _ _ 1 (sgn s) q (sgn t)) by (intros [|[|[|d]]] ?; reflexivity). rewrite face_value by lia. rewrite face_edge_b by exact Ht. reflexivity.
  - rewrite (place3_ext _ _ _ _ _ 0 (sgn s) q (sgn t)) by (intros [|[|[|d]]] ?; reflexivity). rewrite face_value by lia. rewrite face_edge_b by exact Ht. reflexivity.
  - rewrite (place3_ext _ _ _ _ _ 0 (sgn s) (sgn t) q) by (intros [|[|[|d]]] ?; reflexivity). rewrite face_value by lia. rewrite face_edge_a by exact Ht. reflexivity.
Qed.
Lemma edge_corner s x : (s < 2)%nat -> edge_val (sgn s) x = rnd (x s).
Proof.
  intros Hs. unfold edge_val, edge_term. rewrite !fac_end by lia.
  destruct s as [|[|s]]; [| |lia]; cbn [Nat.eqb]; replace (0 / 2) with 0 by field; replace (2 / 2) with 1 by field; rewrite ?Rmult_0_l, ?Rmult_1_l, ?d0, ?Rplus_0_r, ?Rplus_0_l, didem; reflexivity.
Qed.

(** * points of the mesh *)
Local Open Scope nat_scope.
Context (p : nat) (N : nat -> nat -> nat) (X : nat -> nat -> R).
Hypothesis Hp : p <= 9.
Let n1 := pts1 p.
Let ns := Spec_Full.sub1 p.
Lemma at3_pos e D t a b d : D < 3 -> t < n1 -> a < n1 -> b < n1 ->
  tri_posf rnd p N X (e * n1 ^ 3 + at3 n1 D t a b) d = tri_mapf rnd (fun v => X (N e v) d) (place3 D (lobf rnd n1 t) (lobf rnd n1 a) (lobf rnd n1 b)).
Proof.
  intros HD3 Ht Ha Hb. destruct D as [|[|[|D]]]; [| | |lia]; unfold at3; unfold n1; rewrite tri_posf_at by assumption; apply tri_mapf_ext; try reflexivity; intros [|[|[|?]]] ?; try lia; reflexivity.
Qed.
Lemma lobf_end s : s < 2 -> s * ns < n1 /\ lobf rnd n1 (s * ns) = sgn s.
Proof.
  intros Hs. destruct (pts1_sub p) as (A & B). destruct (lobf_ends u rnd HD p Hp) as (E0 & E1). fold n1 ns in A, B, E0, E1.
  destruct s as [|[|s]]; [| |lia]; (split; [lia|]); [exact E0|]. rewrite Nat.mul_1_l. exact E1.
Qed.
Lemma face_pos e D s a b d : D < 3 -> s < 2 -> a < n1 -> b < n1 ->
  tri_posf rnd p N X (e * n1 ^ 3 + at3 n1 D (s * ns) a b) d = face_val (lobf rnd n1 a) (lobf rnd n1 b) (fun i j => X (N e (at3 2 D s i j)) d).
Proof. intros HD3 Hs Ha Hb. destruct (lobf_end s Hs) as (L & E). rewrite at3_pos by assumption. rewrite E. apply (face_value D s _ _ (fun v => X (N e v) d) HD3 Hs). Qed.
Lemma edge_pos e D s s' t d : D < 3 -> s < 2 -> s' < 2 -> t < n1 ->
  tri_posf rnd p N X (e * n1 ^ 3 + at3 n1 D t (s * ns) (s' * ns)) d = edge_val (lobf rnd n1 t) (fun i => X (N e (at3 2 D i s s')) d).
Proof.
  intros HD3 Hs Hs' Ht. destruct (lobf_end s Hs) as (L & E). destruct (lobf_end s' Hs') as (L' & E'). rewrite at3_pos by assumption. rewrite E, E'.
  apply (edge_value D s s' _ (fun v => X (N e v) d) HD3 Hs Hs').
Qed.
Lemma face_ext qa qb x y : (forall i j, i < 2 -> j < 2 -> x i j = y i j) -> face_val qa qb x = face_val qa qb y.
Proof. intros H. unfold face_val, face_term. rewrite !H by lia. reflexivity. Qed.
Lemma edge_ext q x y : (forall i, i < 2 -> x i = y i) -> edge_val q x = edge_val q y.
Proof. intros H. unfold edge_val, edge_term. rewrite !H by lia. reflexivity. Qed.

Theorem faces_equal e D s e' D' s' a b d : D < 3 -> s < 2 -> D' < 3 -> s' < 2 -> a < n1 -> b < n1 ->
  (forall i j, i < 2 -> j < 2 -> N e (at3 2 D s i j) = N e' (at3 2 D' s' i j)) ->
  tri_posf rnd p N X (e * n1 ^ 3 + at3 n1 D (s * ns) a b) d = tri_posf rnd p N X (e' * n1 ^ 3 + at3 n1 D' (s' * ns) a b) d.
Proof. intros HD1 Hs HD2 Hs' Ha Hb H. rewrite !face_pos by assumption. apply face_ext. intros i j Hi Hj. rewrite H by assumption. reflexivity. Qed.
Theorem edges_equal e D s t e' D' s' t' i d : D < 3 -> s < 2 -> t < 2 -> D' < 3 -> s' < 2 -> t' < 2 -> i < n1 ->
  (forall a, a < 2 -> N e (at3 2 D a s t) = N e' (at3 2 D' a s' t')) ->
  tri_posf rnd p N X (e * n1 ^ 3 + at3 n1 D i (s * ns) (t * ns)) d = tri_posf rnd p N X (e' * n1 ^ 3 + at3 n1 D' i (s' * ns) (t' * ns)) d.
Proof. intros HD1 Hs Ht HD2 Hs' Ht' Hi H. rewrite !edge_pos by assumption. apply edge_ext. intros a Ha. rewrite H by assumption. reflexivity. Qed.
Theorem edges_reversed e D s t e' D' s' t' i d : D < 3 -> s < 2 -> t < 2 -> D' < 3 -> s' < 2 -> t' < 2 -> i <= ns ->
  (forall a, a < 2 -> N e (at3 2 D a s t) = N e' (at3 2 D' (1 - a) s' t')) ->
  tri_posf rnd p N X (e * n1 ^ 3 + at3 n1 D i (s * ns) (t * ns)) d = tri_posf rnd p N X (e' * n1 ^ 3 + at3 n1 D' (ns - i) (s' * ns) (t' * ns)) d.
Proof.
  intros HD1 Hs Ht HD2 Hs' Ht' Hi H. destruct (pts1_sub p) as (A & B). fold n1 ns in A, B. rewrite !edge_pos by (assumption || lia).
  assert (Sy := lobf_sym u rnd HD p i Hp Hi). fold n1 ns in Sy. rewrite Sy. apply edge_sym. intros a Ha. rewrite H by assumption. reflexivity.
Qed.
Theorem corner_pos e D r s t d : D < 3 -> r < 2 -> s < 2 -> t < 2 ->
  tri_posf rnd p N X (e * n1 ^ 3 + at3 n1 D (r * ns) (s * ns) (t * ns)) d = rnd (X (N e (at3 2 D r s t)) d).
Proof. intros HD1 Hr Hs Ht. destruct (lobf_end r Hr) as (L & E). rewrite edge_pos by assumption. rewrite E. apply (edge_corner r (fun i => X (N e (at3 2 D i s t)) d) Hr). Qed.
End P.
