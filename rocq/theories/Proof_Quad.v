(** Quadrature tables: from moments to exactness, and a decision procedure for decimal tables. *)
From Coq Require Import List Arith ZArith Reals Lia Lra Bool.
From Coquelicot Require Import Coquelicot.
Import ListNotations.
Require Import Verif.Base Verif.RBase Verif.RSum Verif.RDer Verif.Spec_Poly Verif.Jacobi_Int Verif.Spec_Quad Verif.Model_Quad.
Open Scope R_scope.

(** the integral of t^k over [-1,1] *)
Definition mom (k : nat) : R := (1 - (-1) ^ S k) / INR (S k).

Lemma mom_int k : is_RInt (fun t => t ^ k) (-1) 1 (mom k).
Proof.
  assert (H : is_RInt (fun t => t ^ k) (-1) 1 (1 ^ S k / INR (S k) - (-1) ^ S k / INR (S k))).
  { apply (ftc (fun t => t ^ S k / INR (S k)) (fun t => t ^ k) (fun t => INR k * t ^ pred k)).
    - intros x. assert (N : INR (S k) <> 0) by (apply not_0_INR; lia).
      replace (x ^ k) with (INR (S k) * x ^ pred (S k) * / INR (S k) ) by (cbn [pred]; field; exact N).
      apply der_ext with (fun t => (t ^ S k) * / INR (S k)); [intros; reflexivity|].
      pose proof (derivable_pt_lim_scal (fun t => t ^ S k) (/ INR (S k)) x _ (derivable_pt_lim_pow x (S k))) as D.
      rewrite Rmult_comm. eapply der_ext; [|exact D]. intros t. unfold mult_real_fct. ring.
    - intros x. apply derivable_pt_lim_pow. }
  unfold mom. rewrite pow1 in H. replace ((1 - (-1) ^ S k) / INR (S k)) with (1 / INR (S k) - (-1) ^ S k / INR (S k)); [exact H|].
  unfold Rdiv. ring.
Qed.

Lemma poly_int deg c : is_RInt (poly deg c) (-1) 1 (rsum (S deg) (fun k => c k * mom k)).
Proof.
  unfold poly. generalize (S deg). intros N. induction N; cbn [rsum].
  - assert (H := is_RInt_const (-1) 1 (V:=R_NormedModule) 0).
    eapply eq_ind; [exact H|]. unfold scal; cbn. unfold mult; cbn. ring.
  - apply (is_RInt_plus (V:=R_NormedModule)); [exact IHN|].
    apply (is_RInt_scal (V:=R_NormedModule)). apply mom_int.
Qed.

Definition moments (n deg : nat) (tol : R) (x w : nat -> R) : Prop :=
  forall k, (k <= deg)%nat -> Rabs (rsum n (fun i => w i * x i ^ k) - mom k) <= tol.

Lemma rsum_abs n f : Rabs (rsum n f) <= rsum n (fun i => Rabs (f i)).
Proof.
  induction n; cbn [rsum]; [rewrite Rabs_R0; lra|].
  eapply Rle_trans; [apply Rabs_triang|]. lra.
Qed.

Lemma moments_exact n deg tol x w : moments n deg tol x w -> forall c I, integral (poly deg c) I ->
  Rabs (rsum n (fun i => w i * poly deg c (x i)) - I) <= tol * rsum (S deg) (fun k => Rabs (c k)).
Proof.
  intros M c I HI. assert (U := is_RInt_unique _ _ _ _ HI). assert (V := is_RInt_unique _ _ _ _ (poly_int deg c)).
  assert (E : I = rsum (S deg) (fun k => c k * mom k)) by (rewrite <- U; exact V). rewrite E.
  replace (rsum n (fun i => w i * poly deg c (x i)) - rsum (S deg) (fun k => c k * mom k)) with
    (rsum (S deg) (fun k => c k * (rsum n (fun i => w i * x i ^ k) - mom k))).
  - eapply Rle_trans; [apply rsum_abs|]. rewrite <- rsum_scal_l. apply rsum_le. intros k Hk.
    rewrite Rabs_mult. rewrite Rmult_comm. apply Rmult_le_compat_r; [apply Rabs_pos|]. apply M. lia.
  - rewrite (rsum_ext (S deg) _ (fun k => c k * rsum n (fun i => w i * x i ^ k) - c k * mom k)) by (intros; ring).
    rewrite rsum_minus. f_equal.
    rewrite (rsum_ext n (fun i => w i * poly deg c (x i)) (fun i => rsum (S deg) (fun k => c k * (w i * x i ^ k)))).
    + rewrite rsum_swap. apply rsum_ext. intros k _. symmetry. apply rsum_scal_l.
    + intros i _. unfold poly. rewrite <- rsum_scal_l. apply rsum_ext. intros; ring.
Qed.

(** even and odd moments *)
Lemma mom_even k : mom (2 * k) = 2 / INR (2 * k + 1).
Proof. unfold mom. replace (2 * k + 1)%nat with (S (2 * k)) by lia. rewrite pow_1_odd. f_equal. lra. Qed.
Lemma mom_odd k : mom (2 * k + 1) = 0.
Proof. unfold mom. replace (S (2 * k + 1)) with (2 * (k + 1))%nat by lia. rewrite pow_1_even. unfold Rdiv. ring. Qed.

(** * Decimal tables *)
Definition zscale (K : nat) (p : Z * nat) : Z := fst p * 10 ^ Z.of_nat (K - snd p).
Fixpoint zsum (n : nat) (f : nat -> Z) : Z := match n with O => 0 | S m => zsum m f + f m end%Z.
Definition zmom2 (k : nat) : Z := if Nat.even k then 2%Z else 0%Z.

(** the tests of the even moments 2j, 2j+2, ...: T holds lower bounds of w_i x_i^(2j) and Y of x_i^2, in
    units of 2^-P, each entry of T too small by at most 3j+1 units; e = n(3j+1), N = 2j+1 *)
Definition mulP (P t y : Z) : Z := Z.shiftr (t * y) P.
Fixpoint zmul2 (P : Z) (T Y : list Z) : list Z := match T, Y with t :: T', y :: Y' => mulP P t y :: zmul2 P T' Y' | _, _ => [] end.
Fixpoint mcheck (fuel : nat) (N e n3 tn td M P : Z) (T Y : list Z) : bool :=
  match fuel with
  | O => true
  | S f => let s := fold_right Z.add 0%Z T in
           ((2 * M * td <=? (N * s) * td + tn * (N * M))%Z && ((N * (s + e)) * td <=? 2 * M * td + tn * (N * M))%Z
           && mcheck f (N + 2) (e + n3) n3 tn td M P (zmul2 P T Y) Y)%bool
  end.

Fixpoint incr (l : list Z) : bool := match l with x :: ((y :: _) as t) => (x <? y)%Z && incr t | _ => true end.
Fixpoint all2 (f : Z -> Z -> bool) (a b : list Z) : bool := match a, b with x :: a', y :: b' => f x y && all2 f a' b' | _, _ => true end.
Definition small (K : nat) (l : list (Z * nat)) : bool := forallb (fun p => (snd p <=? K)%nat) l.
Definition P0 : Z := 116.
Definition dec_check (K n deg : nat) (tn td : Z) (xs ws : list (Z * nat)) : bool :=
  let X := map (zscale K) xs in let W := map (zscale K) ws in
  let S10 := (10 ^ Z.of_nat K)%Z in let M := (2 ^ P0)%Z in
  ((length xs =? n)%nat && (length ws =? n)%nat && small K xs && small K ws && (0 <? td)%Z && (0 <=? tn)%Z
  && incr X && forallb (fun x => (- S10 <=? x)%Z && (x <=? S10)%Z) X && forallb (fun w => (0 <? w)%Z && (w <=? 2 * S10)%Z) W
  && all2 (fun x y => (y =? - x)%Z) X (rev X) && all2 Z.eqb W (rev W)
  && mcheck (S (deg / 2)) 1 (Z.of_nat n) (3 * Z.of_nat n) tn td M P0
       (map (fun w => (w * M) / S10)%Z W) (map (fun x => (x * x * M) / (S10 * S10))%Z X))%bool.

Lemma zmul2_len P T X : length T = length X -> length (zmul2 P T X) = length X.
Proof. revert X. induction T; intros [|x X] H; cbn in *; try lia. rewrite IHT by lia. reflexivity. Qed.
Lemma zmul2_nth P T : forall X i, (i < length X)%nat -> length T = length X -> nth i (zmul2 P T X) 0%Z = mulP P (nth i T 0%Z) (nth i X 0%Z).
Proof. induction T; intros [|x X] [|i] H L; cbn in *; try lia. apply IHT; lia. Qed.
Lemma zsum_S_l n f : zsum (S n) f = (f O + zsum n (fun i => f (S i)))%Z.
Proof. induction n; [cbn; lia|]. change (zsum (S (S n)) f) with (zsum (S n) f + f (S n))%Z. rewrite IHn. cbn [zsum]. lia. Qed.
Lemma fold_zsum T : fold_right Z.add 0%Z T = zsum (length T) (fun i => nth i T 0%Z).
Proof. induction T; [reflexivity|]. cbn [fold_right length]. rewrite zsum_S_l. cbn [nth]. rewrite IHT. reflexivity. Qed.
Lemma zsum_IZR n f : IZR (zsum n f) = rsum n (fun i => IZR (f i)).
Proof. induction n; cbn [zsum rsum]; [reflexivity|]. rewrite plus_IZR, IHn. reflexivity. Qed.

(** a is a lower bound of the real r in units of 1/M, too small by at most e *)
Definition lower (M : Z) (e : R) (a : Z) (r : R) : Prop := (0 <= a)%Z /\ IZR a <= r * IZR M <= IZR a + e.

Lemma div_R a b : (0 < b)%Z -> IZR (a / b) <= IZR a / IZR b <= IZR (a / b) + 1.
Proof.
  intros B. assert (Hb := IZR_lt _ _ B).
  assert (L : (b * (a / b) <= a < b * (a / b) + b)%Z) by (pose proof (Z.div_mod a b ltac:(lia)); pose proof (Z.mod_pos_bound a b B); lia).
  destruct L as [L1 L2]. apply IZR_le in L1. apply IZR_lt in L2. rewrite plus_IZR in L2. rewrite mult_IZR in L1, L2.
  split; apply Rmult_le_reg_r with (IZR b); try exact Hb; unfold Rdiv; rewrite ?Rmult_plus_distr_r, (Rmult_assoc (IZR a)), Rinv_l by lra; lra.
Qed.

Lemma lower_mul P e t y r x : (0 <= P)%Z -> lower (2 ^ P) e t r -> lower (2 ^ P) 1 y x -> 0 <= r <= 2 -> 0 <= x <= 1 -> 0 <= e ->
  lower (2 ^ P) (e + 3) (mulP P t y) (r * x).
Proof.
  intros HP [T0 [T1 T2]] [Y0 [Y1 Y2]] Hr Hx He. unfold lower, mulP. rewrite Z.shiftr_div_pow2 by exact HP.
  set (M := (2 ^ P)%Z) in *. assert (M0 : (0 < M)%Z) by (apply Z.pow_pos_nonneg; lia). assert (HM := IZR_lt _ _ M0).
  destruct (div_R (t * y) M M0) as [D1 D2]. rewrite mult_IZR in D1, D2.
  apply IZR_le in T0 as T0'. apply IZR_le in Y0 as Y0'.
  assert (Q : IZR t * IZR y / IZR M * IZR M = IZR t * IZR y) by (field; lra).
  assert (U : IZR t * IZR y <= r * IZR M * (x * IZR M)) by (apply Rmult_le_compat; lra).
  assert (V : r * IZR M * (x * IZR M) <= IZR t * IZR y + (e + 2) * IZR M).
  { apply Rle_trans with (IZR t * IZR y + r * IZR M * 1 + IZR M * e); [|nra].
    assert (A : r * IZR M * (x * IZR M) <= r * IZR M * (IZR y + 1)) by (apply Rmult_le_compat_l; [nra|exact Y2]).
    assert (B : r * IZR M * IZR y <= (IZR t + e) * IZR y) by (apply Rmult_le_compat_r; [exact Y0'|exact T2]).
    assert (C : e * IZR y <= e * IZR M) by (apply Rmult_le_compat_l; [exact He|]; nra). lra. }
  split; [apply Z.div_pos; [apply Z.mul_nonneg_nonneg; assumption|exact M0]|].
  split.
  - apply Rle_trans with (IZR t * IZR y / IZR M); [exact D1|]. apply Rmult_le_reg_r with (IZR M); [exact HM|]. rewrite Q. lra.
  - apply Rle_trans with (IZR t * IZR y / IZR M + (e + 2)); [|lra]. apply Rmult_le_reg_r with (IZR M); [exact HM|].
    rewrite Rmult_plus_distr_r, Q. lra.
Qed.

Lemma rsum_bounds n f g h : (forall i, (i < n)%nat -> f i <= g i <= f i + h) -> rsum n f <= rsum n g <= rsum n f + INR n * h.
Proof.
  intros H. induction n; [cbn; lra|]. cbn [rsum]. rewrite S_INR. assert (A := H n ltac:(lia)).
  assert (B : rsum n f <= rsum n g <= rsum n f + INR n * h) by (apply IHn; intros; apply H; lia). lra.
Qed.

Lemma mcheck_ok n tn td P (x w : nat -> R) Y : (0 <= P)%Z -> (0 < td)%Z -> length Y = n ->
  (forall i, (i < n)%nat -> 0 <= w i <= 2 /\ 0 <= x i <= 1 /\ lower (2 ^ P) 1 (nth i Y 0%Z) (x i)) -> forall fuel k N e T,
  length T = n -> (forall i, (i < n)%nat -> lower (2 ^ P) (INR (3 * k + 1)) (nth i T 0%Z) (w i * x i ^ k)) ->
  N = Z.of_nat (2 * k + 1) -> e = Z.of_nat (n * (3 * k + 1)) ->
  mcheck fuel N e (3 * Z.of_nat n) tn td (2 ^ P) P T Y = true -> forall j, (k <= j < k + fuel)%nat ->
  Rabs (rsum n (fun i => w i * x i ^ j) - 2 / INR (2 * j + 1)) <= IZR tn / IZR td.
Proof.
  intros HP Htd LY HY. induction fuel as [|f IH]; intros k N e T LT HT HN He H j Hj; [lia|].
  cbn [mcheck] in H. cbv zeta in H. rewrite !andb_true_iff in H. destruct H as [[H1 H2] H3]. apply Z.leb_le in H1, H2.
  destruct (Nat.eq_dec j k) as [->|Nj].
  - rewrite fold_zsum, LT in H1, H2. set (s := zsum n _) in *. set (M := (2 ^ P)%Z) in *.
    assert (M0 : (0 < M)%Z) by (apply Z.pow_pos_nonneg; lia). assert (HM := IZR_lt _ _ M0). assert (Ht := IZR_lt _ _ Htd).
    assert (N0 : 0 < INR (2 * k + 1)) by (apply lt_0_INR; lia).
    assert (B : IZR s <= rsum n (fun i => w i * x i ^ k * IZR M) <= IZR s + INR n * INR (3 * k + 1)).
    { unfold s. rewrite zsum_IZR. apply rsum_bounds. intros i Hi. apply (HT i Hi). }
    rewrite rsum_scal_r in B. set (r := rsum n _) in *. rewrite <- mult_INR in B.
    apply IZR_le in H1, H2. rewrite HN in H1, H2. rewrite He in H2. rewrite !plus_IZR, !mult_IZR in H1, H2. rewrite plus_IZR in H2. rewrite <- INR_IZR_INZ in H1. rewrite <- !(INR_IZR_INZ (2 * k + 1)), <- (INR_IZR_INZ (n * (3 * k + 1))) in H2.
    set (NN := INR (2 * k + 1)) in *. set (ee := INR (n * (3 * k + 1))) in *. set (m := IZR M) in *. set (d := IZR td) in *. set (u := IZR tn) in *. set (S0 := IZR s) in *.
    assert (E : (r - 2 / NN) * (NN * m * d) = NN * (r * m) * d - 2 * m * d) by (field; lra).
    assert (F : u / d * (NN * m * d) = u * (NN * m)) by (field; lra).
    assert (G : 0 < NN * m * d) by (repeat apply Rmult_lt_0_compat; assumption).
    assert (Nd : 0 <= NN * d) by (left; apply Rmult_lt_0_compat; assumption).
    assert (A1 : NN * S0 * d <= NN * (r * m) * d) by (replace (NN * S0 * d) with (NN * d * S0) by ring; replace (NN * (r * m) * d) with (NN * d * (r * m)) by ring; apply Rmult_le_compat_l; lra).
    assert (A2 : NN * (r * m) * d <= NN * (S0 + ee) * d) by (replace (NN * (S0 + ee) * d) with (NN * d * (S0 + ee)) by ring; replace (NN * (r * m) * d) with (NN * d * (r * m)) by ring; apply Rmult_le_compat_l; lra).
    apply Rabs_le. split; apply Rmult_le_reg_r with (NN * m * d); try exact G; rewrite ?Ropp_mult_distr_l_reverse, E, F; lra.
  - apply (IH (S k) (N + 2)%Z (e + 3 * Z.of_nat n)%Z (zmul2 P T Y)).
    + rewrite zmul2_len; lia.
    + intros i Hi. rewrite zmul2_nth by lia. destruct (HY i Hi) as (Hw & Hx & Ly).
      replace (w i * x i ^ S k) with (w i * x i ^ k * x i) by (cbn [pow]; ring).
      replace (INR (3 * S k + 1)) with (INR (3 * k + 1) + 3) by (replace (3 * S k + 1)%nat with (3 * k + 1 + 3)%nat by lia; rewrite (plus_INR (3 * k + 1) 3); change (INR 3) with (1 + 1 + 1); lra).
      apply lower_mul; [exact HP|apply HT; exact Hi|exact Ly| |exact Hx|apply pos_INR].
      assert (0 <= x i ^ k <= 1) by (split; [apply pow_le; lra|]; rewrite <- (pow1 k); apply pow_incr; lra). nra.
    + lia.
    + lia.
    + exact H3.
    + lia.
Qed.

Lemma S10_pos K : 0 < IZR (10 ^ Z.of_nat K).
Proof. apply IZR_lt. apply Z.pow_pos_nonneg; lia. Qed.

Lemma dec_scale K p : (snd p <= K)%nat -> dec (fst p) (snd p) = IZR (zscale K p) / IZR (10 ^ Z.of_nat K).
Proof.
  intros H. unfold dec, zscale. rewrite mult_IZR.
  replace (10 ^ Z.of_nat K)%Z with (10 ^ Z.of_nat (K - snd p) * 10 ^ Z.of_nat (snd p))%Z.
  - rewrite mult_IZR. pose proof (S10_pos (K - snd p)). pose proof (S10_pos (snd p)). field. lra.
  - rewrite <- Z.pow_add_r by lia. f_equal. lia.
Qed.

Lemma nth_decs K l i : small K l = true -> (i < length l)%nat ->
  nth i (decs l) 0 = IZR (nth i (map (zscale K) l) 0%Z) / IZR (10 ^ Z.of_nat K).
Proof.
  intros S H. unfold small in S. rewrite forallb_forall in S.
  rewrite (nth_indep (decs l) 0 (dec (fst (0%Z, O)) (snd (0%Z, O)))) by (unfold decs; rewrite map_length; exact H).
  rewrite (nth_indep (map (zscale K) l) 0%Z (zscale K (0%Z, O))) by (rewrite map_length; exact H).
  unfold decs. rewrite (map_nth (fun p => dec (fst p) (snd p))), map_nth. apply dec_scale.
  apply Nat.leb_le. apply S. apply nth_In. exact H.
Qed.

Lemma mom_z k : mom k = IZR (zmom2 k) / INR (S k).
Proof.
  unfold mom, zmom2. destruct (Nat.even k) eqn:E.
  - apply Nat.even_spec in E. destruct E as [j ->]. rewrite pow_1_odd. f_equal. lra.
  - assert (O : Nat.odd k = true) by (unfold Nat.odd; rewrite E; reflexivity). apply Nat.odd_spec in O. destruct O as [j ->].
    replace (S (2 * j + 1)) with (2 * (j + 1))%nat by lia. rewrite pow_1_even. f_equal. lra.
Qed.

Lemma forallb_seq n f : forallb f (seq 0 n) = true -> forall i, (i < n)%nat -> f i = true.
Proof. intros H i Hi. rewrite forallb_forall in H. apply H. apply in_seq. lia. Qed.

Lemma incr_ok l : incr l = true -> forall i j, (i < j < length l)%nat -> (nth i l 0 < nth j l 0)%Z.
Proof.
  induction l as [|x l IH]; intros H i j Hij; [cbn in Hij; lia|].
  assert (Hl : incr l = true) by (destruct l; [reflexivity|]; cbn [incr] in H; apply andb_true_iff in H; apply H).
  destruct i as [|i]; destruct j as [|j]; cbn [nth length] in *; try lia; [|apply (IH Hl); lia].
  destruct l as [|y l]; [cbn in Hij; lia|]. cbn [incr] in H. apply andb_true_iff in H. destruct H as [H _]. apply Z.ltb_lt in H.
  destruct j as [|j]; cbn [nth]; [exact H|]. pose proof (IH Hl 0%nat (S j) ltac:(cbn [length] in *; lia)) as Q. cbn [nth] in Q. lia.
Qed.
Lemma all2_ok f a : forall b, all2 f a b = true -> length a = length b -> forall i, (i < length a)%nat -> f (nth i a 0%Z) (nth i b 0%Z) = true.
Proof.
  induction a as [|x a IH]; intros [|y b] H L i Hi; cbn in *; try lia. apply andb_true_iff in H. destruct i; [apply H|]. apply IH; [apply H| |]; lia.
Qed.
Lemma forallb_nth (f : Z -> bool) l : forallb f l = true -> forall i, (i < length l)%nat -> f (nth i l 0%Z) = true.
Proof. intros H i Hi. rewrite forallb_forall in H. apply H. apply nth_In. exact Hi. Qed.
Lemma nth_map0 f (l : list Z) i : (i < length l)%nat -> nth i (map f l) 0%Z = f (nth i l 0%Z).
Proof. intros H. rewrite (nth_indep _ 0%Z (f 0%Z)) by (rewrite map_length; exact H). apply map_nth. Qed.

(** odd moments of a symmetric rule vanish *)
Lemma rsum_rev n f : rsum n (fun i => f (n - 1 - i)%nat) = rsum n f.
Proof.
  induction n; [reflexivity|]. rewrite rsum_S_l. replace (S n - 1 - 0)%nat with n by lia. cbn [rsum]. rewrite <- IHn.
  rewrite (rsum_ext n (fun i => f (S n - 1 - S i)%nat) (fun i => f (n - 1 - i)%nat)) by (intros i Hi; f_equal; lia). ring.
Qed.
Lemma odd_moment n x w j : (forall i, (i < n)%nat -> x (n - 1 - i)%nat = - x i /\ w (n - 1 - i)%nat = w i) -> rsum n (fun i => w i * x i ^ (2 * j + 1)) = 0.
Proof.
  intros Sy. pose proof (rsum_rev n (fun i => w i * x i ^ (2 * j + 1))) as Rv. cbv beta in Rv.
  rewrite (rsum_ext n _ (fun i => - 1 * (w i * x i ^ (2 * j + 1)))) in Rv.
  - rewrite rsum_scal_l in Rv. lra.
  - intros i Hi. destruct (Sy i Hi) as [-> ->]. replace (- x i) with (-1 * x i) by ring. rewrite Rpow_mult_distr.
    replace ((-1) ^ (2 * j + 1)) with (-1); [ring|]. rewrite pow_add, pow_1_even. cbn. lra.
Qed.

Theorem dec_check_ok K n deg tn td xs ws : dec_check K n deg tn td xs ws = true ->
  length (decs xs) = n /\ length (decs ws) = n /\ increasing n (fun i => nth i (decs xs) 0) /\
  quad_rule n deg (IZR tn / IZR td) (fun i => nth i (decs xs) 0) (fun i => nth i (decs ws) 0).
Proof.
  unfold dec_check. intros H. cbv zeta in H.
  set (X := map (zscale K) xs) in *. set (W := map (zscale K) ws) in *. set (s := (10 ^ Z.of_nat K)%Z) in *. set (M := (2 ^ P0)%Z) in *.
  repeat rewrite andb_true_iff in H. destruct H as [[[[[[[[[[[Lx Lw] Sx] Sw] Td] Tn] Inc] Bx] Bw] Sy1] Sy2] Mo].
  apply Nat.eqb_eq in Lx, Lw. apply Z.ltb_lt in Td. apply Z.leb_le in Tn.
  assert (s0 : (0 < s)%Z) by (apply Z.pow_pos_nonneg; lia).
  assert (Hs : 0 < IZR s) by apply S10_pos.
  assert (LX : length X = n) by (unfold X; rewrite map_length; exact Lx). assert (LW : length W = n) by (unfold W; rewrite map_length; exact Lw).
  assert (Ex : forall i, (i < n)%nat -> nth i (decs xs) 0 = IZR (nth i X 0%Z) / IZR s) by (intros; apply nth_decs; [exact Sx|lia]).
  assert (Ew : forall i, (i < n)%nat -> nth i (decs ws) 0 = IZR (nth i W 0%Z) / IZR s) by (intros; apply nth_decs; [exact Sw|lia]).
  assert (I : increasing n (fun i => nth i (decs xs) 0)).
  { intros i j Hij. cbv beta. rewrite !Ex by lia. apply Rmult_lt_compat_r; [apply Rinv_0_lt_compat; exact Hs|]. apply IZR_lt. apply incr_ok; [exact Inc|lia]. }
  assert (Bd : forall i, (i < n)%nat -> -1 <= nth i (decs xs) 0 <= 1).
  { intros i Hi. rewrite Ex by lia. pose proof (forallb_nth _ _ Bx i ltac:(lia)) as P. cbv beta in P. rewrite andb_true_iff in P.
    destruct P as [P1 P2]. apply Z.leb_le in P1, P2. apply IZR_le in P1, P2. rewrite opp_IZR in P1.
    split; apply Rmult_le_reg_r with (IZR s); try exact Hs; unfold Rdiv; rewrite Rmult_assoc, Rinv_l by lra; lra. }
  assert (Pw : forall i, (i < n)%nat -> (0 < nth i W 0 <= 2 * s)%Z).
  { intros i Hi. pose proof (forallb_nth _ _ Bw i ltac:(lia)) as P. cbv beta in P. rewrite andb_true_iff in P. destruct P as [P1 P2]. apply Z.ltb_lt in P1. apply Z.leb_le in P2. lia. }
  assert (Pw' : forall i, (i < n)%nat -> 0 < nth i (decs ws) 0 <= 2).
  { intros i Hi. rewrite Ew by exact Hi. destruct (Pw i Hi) as [P1 P2]. apply IZR_lt in P1. apply IZR_le in P2. rewrite mult_IZR in P2. split.
    - apply Rmult_lt_0_compat; [exact P1|]. apply Rinv_0_lt_compat; exact Hs.
    - apply Rmult_le_reg_r with (IZR s); [exact Hs|]. unfold Rdiv. rewrite Rmult_assoc, Rinv_l by lra. lra. }
  assert (Sym : forall i, (i < n)%nat -> nth (n - 1 - i) (decs xs) 0 = - nth i (decs xs) 0 /\ nth (n - 1 - i) (decs ws) 0 = nth i (decs ws) 0).
  { intros i Hi. rewrite !Ex, !Ew by lia.
    pose proof (all2_ok _ _ _ Sy1 ltac:(rewrite rev_length; reflexivity) i ltac:(lia)) as Q1. pose proof (all2_ok _ _ _ Sy2 ltac:(rewrite rev_length; reflexivity) i ltac:(lia)) as Q2.
    cbv beta in Q1, Q2. apply Z.eqb_eq in Q1, Q2. rewrite rev_nth, LX in Q1 by lia. rewrite rev_nth, LW in Q2 by lia.
    replace (n - S i)%nat with (n - 1 - i)%nat in Q1, Q2 by lia. rewrite Q1, <- Q2, opp_IZR. split; [unfold Rdiv; ring|reflexivity]. }
  split; [unfold decs; rewrite map_length; exact Lx|]. split; [unfold decs; rewrite map_length; exact Lw|]. split; [exact I|].
  constructor.
  - intros i j Hi Hj D. cbv beta. destruct (Nat.lt_trichotomy i j) as [L|[E|L]]; [|contradiction|].
    + apply Rlt_not_eq. apply I. lia.
    + apply not_eq_sym. apply Rlt_not_eq. apply I. lia.
  - exact Bd.
  - exact Sym.
  - intros i Hi. apply Pw'. exact Hi.
  - apply moments_exact. intros k Hk.
    assert (Ht := IZR_lt _ _ Td). assert (Hn := IZR_le _ _ Tn).
    destruct (Nat.even k) eqn:Ek.
    + apply Nat.even_spec in Ek. destruct Ek as [j ->]. rewrite mom_even.
      rewrite (rsum_ext n _ (fun i => nth i (decs ws) 0 * (nth i (decs xs) 0 ^ 2) ^ j)) by (intros i _; rewrite <- pow_mult; reflexivity).
      apply (mcheck_ok n tn td P0 (fun i => nth i (decs xs) 0 ^ 2) (fun i => nth i (decs ws) 0) (map (fun x => (x * x * M) / (s * s))%Z X)) with (fuel := S (deg / 2)) (k := 0%nat) (N := 1%Z) (e := Z.of_nat n) (T := map (fun w => (w * M) / s)%Z W);
        [unfold P0; lia|exact Td|rewrite map_length; exact LX| |rewrite map_length; exact LW| |reflexivity|cbn; lia|exact Mo|].
      * intros i Hi. destruct (Pw' i Hi). pose proof (Bd i Hi). split; [lra|]. split; [cbn; nra|].
        rewrite nth_map0 by lia. unfold lower. fold M. assert (ss : (0 < s * s)%Z) by (apply Z.mul_pos_pos; exact s0).
        assert (m0 : (0 < M)%Z) by (apply Z.pow_pos_nonneg; unfold P0; lia).
        split; [apply Z.div_pos; [|exact ss]; apply Z.mul_nonneg_nonneg; [apply Z.square_nonneg|lia]|].
        rewrite Ex by exact Hi. replace ((IZR (nth i X 0%Z) / IZR s) ^ 2 * IZR M) with (IZR (nth i X 0 * nth i X 0 * M)%Z / IZR (s * s)%Z) by (rewrite !mult_IZR; field; lra).
        apply div_R. exact ss.
      * intros i Hi. rewrite nth_map0 by lia. unfold lower. fold M. assert (m0 : (0 < M)%Z) by (apply Z.pow_pos_nonneg; unfold P0; lia).
        destruct (Pw i Hi) as [P1 _].
        split; [apply Z.div_pos; [|exact s0]; apply Z.mul_nonneg_nonneg; lia|].
        rewrite Ew by exact Hi. change (INR (3 * 0 + 1)) with 1. cbn [pow]. rewrite Rmult_1_r.
        replace (IZR (nth i W 0%Z) / IZR s * IZR M) with (IZR (nth i W 0 * M)%Z / IZR s) by (rewrite mult_IZR; field; lra).
        apply div_R. exact s0.
      * pose proof (Nat.div_le_mono (2 * j) deg 2 ltac:(lia) Hk) as D. rewrite Nat.mul_comm, Nat.div_mul in D by lia. lia.
    + assert (O : Nat.odd k = true) by (unfold Nat.odd; rewrite Ek; reflexivity). apply Nat.odd_spec in O. destruct O as [j ->].
      rewrite mom_odd, odd_moment by exact Sym. rewrite Rminus_0_r, Rabs_R0. unfold Rdiv. apply Rmult_le_pos; [exact Hn|]. left. apply Rinv_0_lt_compat. exact Ht.
Qed.
