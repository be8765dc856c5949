(** Smoothing on a structured mesh (C66): a field that depends on one direction only. *)
From Coq Require Import Reals List Arith ZArith Lra Lia Bool.
Import ListNotations.
Require Import Verif.Base Verif.RSum Verif.NatSum Verif.Spec_Patch Verif.Spec_Box Verif.Spec_Full Verif.Spec_File Verif.Spec_Average Verif.Proof_Full.
Local Open Scope nat_scope.

Lemma INR_nsum n f : INR (nsum n f) = rsum n (fun i => INR (f i)).
Proof. induction n as [|n IH]; [reflexivity|]. cbn [nsum rsum]. rewrite plus_INR, IH. reflexivity. Qed.

(** sums over a numbered grid *)
Lemma rsum_grid a b c G : rsum (a * b * c) G = rsum c (fun k => rsum b (fun j => rsum a (fun i => G (number a b i j k)))).
Proof.
  replace (a * b * c) with (c * (b * a)) by ring. rewrite rsum_mul. apply rsum_ext. intros k _. rewrite rsum_mul. apply rsum_ext. intros j _. apply rsum_ext. intros i _. f_equal. unfold number. ring.
Qed.
Lemma prod3 a b c (P Q S : nat -> R) : rsum c (fun k => rsum b (fun j => rsum a (fun i => P i * Q j * S k)))%R = (rsum a P * rsum b Q * rsum c S)%R.
Proof.
  rewrite (rsum_ext c _ (fun k => rsum a P * rsum b Q * S k)%R).
  - rewrite rsum_scal_l. reflexivity.
  - intros k _. rewrite (rsum_ext b _ (fun j => rsum a P * Q j * S k)%R).
    + rewrite (rsum_ext b _ (fun j => (rsum a P * S k) * Q j)%R) by (intros; ring). rewrite rsum_scal_l. ring.
    + intros j _. rewrite (rsum_ext a _ (fun i => P i * (Q j * S k))%R) by (intros; ring). rewrite rsum_scal_r. ring.
Qed.

(** how often line t bounds the interval q *)
Definition bd (q t : nat) : R := ((if q =? t then 1 else 0) + (if q + 1 =? t then 1 else 0))%R.
Lemma bd_sum n t (g : nat -> R) : 0 < t < n -> rsum n (fun q => bd q t * g q)%R = (g t + g (t - 1)%nat)%R.
Proof.
  intros H. unfold bd. rewrite (rsum_ext n _ (fun q => (if q =? t then g q else 0) + (if q =? t - 1 then g q else 0))%R).
  - rewrite rsum_plus. f_equal.
    + rewrite (rsum_single n t); [rewrite Nat.eqb_refl; reflexivity|lia|]. intros i Hi Ne. apply Nat.eqb_neq in Ne. rewrite Ne. reflexivity.
    + rewrite (rsum_single n (t - 1)); [rewrite Nat.eqb_refl; reflexivity|lia|]. intros i Hi Ne. apply Nat.eqb_neq in Ne. rewrite Ne. reflexivity.
  - intros q Hq. destruct (Nat.eqb_spec q t), (Nat.eqb_spec (q + 1) t), (Nat.eqb_spec q (t - 1)); try lia; ring.
Qed.
Lemma bd_pos n t : 1 <= n -> t <= n -> (0 < rsum n (fun q => bd q t))%R.
Proof.
  intros Hn Ht. assert (P : forall q, (0 <= bd q t)%R) by (intros q; unfold bd; destruct (q =? t), (q + 1 =? t); lra).
  assert (E : exists q, q < n /\ (1 <= bd q t)%R).
  { destruct (Nat.eq_dec t n) as [->|Ne]; [exists (n - 1)|exists t]; (split; [lia|]); unfold bd.
    - replace (n - 1 + 1) with n by lia. rewrite Nat.eqb_refl. destruct (n - 1 =? n); lra.
    - rewrite Nat.eqb_refl. destruct (t + 1 =? t); lra. }
  destruct E as (q & Hq & E). rewrite (rsum_split n q) by exact Hq.
  assert (A : (0 <= rsum n (fun i => if Nat.eqb i q then 0 else bd i t))%R) by (apply rsum_nonneg; intros i _; destruct (i =? q); [lra|apply P]). lra.
Qed.

Section Lattice.
  Variables (p ni nj nk : nat) (CN : nat -> nat -> nat) (node : nat -> nat -> nat -> nat) (D : nat) (H h : nat -> R).
  Let ns := Spec_Full.sub1 p.
  Let A := ni * ns.
  Let B := nj * ns.
  Let C := nk * ns.
  Let nc := A * B * C.
  Hypotheses (Hi : 1 <= ni) (Hj : 1 <= nj) (Hk : 1 <= nk) (HD : D < 3)
    (Hinj : forall a b c a' b' c', a <= A -> b <= B -> c <= C -> a' <= A -> b' <= B -> c' <= C -> node a b c = node a' b' c' -> a = a' /\ b = b' /\ c = c')
    (HC : forall i j k x y z l, i < ni -> j < nj -> k < nk -> x < ns -> y < ns -> z < ns -> l < 8 ->
       CN (cell_id p (cell_of ni nj i j k) x y z) l = node (i * ns + x + corner_coord l 0) (j * ns + y + corner_coord l 1) (k * ns + z + corner_coord l 2))
    (Hh : forall a b c, a <= A -> b <= B -> c <= C -> h (node a b c) = H (tri3 a b c D)).

  (** sums over the cells *)
  Lemma cells_sum (F : nat -> R) (P Q S : nat -> R) :
    (forall i j k x y z, i < ni -> j < nj -> k < nk -> x < ns -> y < ns -> z < ns -> F (cell_id p (cell_of ni nj i j k) x y z) = (P (i * ns + x)%nat * Q (j * ns + y)%nat * S (k * ns + z)%nat)%R) ->
    rsum nc F = (rsum A P * rsum B Q * rsum C S)%R.
  Proof.
    intros HF. unfold nc, A, B, C. replace (ni * ns * (nj * ns) * (nk * ns)) with ((ni * nj * nk) * (ns * ns * ns)) by ring. rewrite rsum_mul, rsum_grid.
    rewrite (rsum_ext nk _ (fun k => rsum nj (fun j => rsum ni (fun i => rsum ns (fun x => P (i * ns + x)%nat) * rsum ns (fun y => Q (j * ns + y)%nat) * rsum ns (fun z => S (k * ns + z)%nat))))%R).
    - rewrite prod3, !rsum_mul. reflexivity.
    - intros k Hk'. apply rsum_ext. intros j Hj'. apply rsum_ext. intros i Hi'. rewrite rsum_grid, <- prod3. apply rsum_ext. intros z Hz. apply rsum_ext. intros y Hy. apply rsum_ext. intros x Hx.
      rewrite <- HF by assumption. f_equal. unfold cell_id. fold ns. unfold cell_of, number. ring.
  Qed.
  Lemma idx n i x : i < n -> x < ns -> i * ns + x < n * ns.
  Proof. intros. nia. Qed.
  Lemma times_lattice i j k x y z a b c : i < ni -> j < nj -> k < nk -> x < ns -> y < ns -> z < ns -> a <= A -> b <= B -> c <= C ->
    INR (times 8 CN (cell_id p (cell_of ni nj i j k) x y z) (node a b c)) = (bd (i * ns + x) a * bd (j * ns + y) b * bd (k * ns + z) c)%R.
  Proof.
    intros Hi' Hj' Hk' Hx Hy Hz Ha Hb Hc. unfold times. cbn [seq filter]. rewrite !HC by (assumption || lia).
    assert (X1 := idx ni i x Hi' Hx). assert (Y1 := idx nj j y Hj' Hy). assert (Z1 := idx nk k z Hk' Hz). fold A in X1. fold B in Y1. fold C in Z1.
    set (X := i * ns + x) in *. set (Y := j * ns + y) in *. set (Z := k * ns + z) in *.
    assert (E : forall u v w, u <= 1 -> v <= 1 -> w <= 1 -> (node (X + u) (Y + v) (Z + w) =? node a b c) = ((X + u =? a) && (Y + v =? b) && (Z + w =? c))).
    { intros u v w Hu Hv Hw. destruct (Nat.eqb_spec (node (X + u) (Y + v) (Z + w)) (node a b c)) as [G|G].
      - apply Hinj in G; try lia. destruct G as (-> & -> & ->). rewrite !Nat.eqb_refl. reflexivity.
      - destruct (Nat.eqb_spec (X + u) a) as [<-|]; [|reflexivity]. destruct (Nat.eqb_spec (Y + v) b) as [<-|]; [|reflexivity]. destruct (Nat.eqb_spec (Z + w) c) as [<-|]; [|reflexivity]. congruence. }
    change (corner_coord 0 0) with 0. change (corner_coord 0 1) with 0. change (corner_coord 0 2) with 0. change (corner_coord 1 0) with 1. change (corner_coord 1 1) with 0. change (corner_coord 1 2) with 0.
    change (corner_coord 2 0) with 0. change (corner_coord 2 1) with 1. change (corner_coord 2 2) with 0. change (corner_coord 3 0) with 1. change (corner_coord 3 1) with 1. change (corner_coord 3 2) with 0.
    change (corner_coord 4 0) with 0. change (corner_coord 4 1) with 0. change (corner_coord 4 2) with 1. change (corner_coord 5 0) with 1. change (corner_coord 5 1) with 0. change (corner_coord 5 2) with 1.
    change (corner_coord 6 0) with 0. change (corner_coord 6 1) with 1. change (corner_coord 6 2) with 1. change (corner_coord 7 0) with 1. change (corner_coord 7 1) with 1. change (corner_coord 7 2) with 1.
    rewrite !E by lia. rewrite !Nat.add_0_r. unfold bd.
    destruct (Nat.eqb_spec X a), (Nat.eqb_spec (X + 1) a), (Nat.eqb_spec Y b), (Nat.eqb_spec (Y + 1) b), (Nat.eqb_spec Z c), (Nat.eqb_spec (Z + 1) c); try lia; cbn; lra.
  Qed.
  Lemma mean_lattice i j k x y z : i < ni -> j < nj -> k < nk -> x < ns -> y < ns -> z < ns ->
    cell_mean CN h (cell_id p (cell_of ni nj i j k) x y z) = let q := tri3 (i * ns + x) (j * ns + y) (k * ns + z) D in ((H q + H (q + 1)%nat) / 2)%R.
  Proof.
    intros Hi' Hj' Hk' Hx Hy Hz. unfold cell_mean. cbn [rsum]. rewrite !HC by (assumption || lia).
    assert (X1 := idx ni i x Hi' Hx). assert (Y1 := idx nj j y Hj' Hy). assert (Z1 := idx nk k z Hk' Hz). fold A in X1. fold B in Y1. fold C in Z1.
    set (X := i * ns + x) in *. set (Y := j * ns + y) in *. set (Z := k * ns + z) in *.
    change (corner_coord 0 0) with 0. change (corner_coord 0 1) with 0. change (corner_coord 0 2) with 0. change (corner_coord 1 0) with 1. change (corner_coord 1 1) with 0. change (corner_coord 1 2) with 0.
    change (corner_coord 2 0) with 0. change (corner_coord 2 1) with 1. change (corner_coord 2 2) with 0. change (corner_coord 3 0) with 1. change (corner_coord 3 1) with 1. change (corner_coord 3 2) with 0.
    change (corner_coord 4 0) with 0. change (corner_coord 4 1) with 0. change (corner_coord 4 2) with 1. change (corner_coord 5 0) with 1. change (corner_coord 5 1) with 0. change (corner_coord 5 2) with 1.
    change (corner_coord 6 0) with 0. change (corner_coord 6 1) with 1. change (corner_coord 6 2) with 1. change (corner_coord 7 0) with 1. change (corner_coord 7 1) with 1. change (corner_coord 7 2) with 1.
    rewrite !Hh by lia. rewrite !Nat.add_0_r. destruct D as [|[|[|d]]]; [..|lia]; cbn [tri3]; cbv zeta; lra.
  Qed.

  Lemma smooth_lattice a b c : a <= A -> b <= B -> c <= C -> 0 < tri3 a b c D < tri3 A B C D ->
    let t := tri3 a b c D in smoothed CN nc h (node a b c) = ((H (t - 1)%nat + 2 * H t + H (t + 1)%nat) / 4)%R.
  Proof.
    intros Ha Hb Hc Ht t. unfold smoothed, node_mean.
    assert (P12 := pts1_sub p). fold ns in P12. destruct P12 as (_ & Ps).
    set (G := fun q => ((H q + H (q + 1)%nat) / 2)%R).
    assert (Cn : INR (corner_count CN nc (node a b c)) = (rsum A (fun q => bd q a) * rsum B (fun q => bd q b) * rsum C (fun q => bd q c))%R).
    { unfold corner_count. rewrite INR_nsum. apply cells_sum. intros. apply times_lattice; assumption. }
    assert (PA : (0 < rsum A (fun q => bd q a))%R) by (apply bd_pos; unfold A in *; nia). assert (PB : (0 < rsum B (fun q => bd q b))%R) by (apply bd_pos; unfold B in *; nia). assert (PC : (0 < rsum C (fun q => bd q c))%R) by (apply bd_pos; unfold C in *; nia).
    assert (Pos : (0 < INR (corner_count CN nc (node a b c)))%R) by (rewrite Cn; apply Rmult_lt_0_compat; [apply Rmult_lt_0_compat|]; assumption).
    destruct (Nat.eqb_spec (corner_count CN nc (node a b c)) 0) as [Z|_]; [rewrite Z in Pos; cbn in Pos; lra|].
    set (W := fun d q => (bd q (tri3 a b c d) * (if d =? D then G q else 1))%R).
    assert (Nu : rsum nc (fun c0 => INR (times 8 CN c0 (node a b c)) * cell_mean CN h c0)%R = (rsum A (W 0%nat) * rsum B (W 1%nat) * rsum C (W 2%nat))%R).
    { apply cells_sum. intros i j k x y z Hi' Hj' Hk' Hx Hy Hz. rewrite times_lattice, mean_lattice by assumption. cbv zeta. unfold W. cbn [tri3]. destruct D as [|[|[|d]]]; [..|lia]; cbn [Nat.eqb tri3]; unfold G; ring. }
    rewrite Nu, Cn.
    assert (T1 : forall d, d < 3 -> d <> D -> forall n, rsum n (W d) = rsum n (fun q => bd q (tri3 a b c d))) by (intros d Hd Ne n; apply rsum_ext; intros q _; unfold W; apply Nat.eqb_neq in Ne; rewrite Ne; ring).
    assert (T2 : rsum (tri3 A B C D) (W D) = (G t + G (t - 1)%nat)%R).
    { rewrite (rsum_ext _ _ (fun q => bd q t * G q)%R) by (intros q _; unfold W; rewrite Nat.eqb_refl; reflexivity). apply bd_sum. exact Ht. }
    assert (T3 : rsum (tri3 A B C D) (fun q => bd q t) = 2%R).
    { rewrite (rsum_ext _ _ (fun q => bd q t * 1)%R) by (intros; ring). rewrite (bd_sum _ t (fun _ => 1%R)) by exact Ht. ring. }
    unfold t in *. unfold G in T2. replace (tri3 a b c D - 1 + 1) with (tri3 a b c D) in T2 by lia.
    destruct D as [|[|[|d]]]; [| | |lia]; cbn [tri3] in *.
    - rewrite (T1 1), (T1 2) by lia. rewrite T2, T3. cbn [tri3]. field. split; lra.
    - rewrite (T1 0), (T1 2) by lia. rewrite T2, T3. cbn [tri3]. field. split; lra.
    - rewrite (T1 0), (T1 1) by lia. rewrite T2, T3. cbn [tri3]. field. split; lra.
  Qed.
End Lattice.
