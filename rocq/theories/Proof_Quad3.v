(** Every table is a quadrature rule. *)
From Coq Require Import List Arith ZArith Reals Lia Lra Bool.
Import ListNotations.
Require Import Verif.Base Verif.RBase Verif.RSum Verif.Spec_Poly Verif.Spec_Quad Verif.Model_Quad Verif.Proof_Quad Verif.Proof_Quad2.
Open Scope R_scope.

Lemma is_rule_tol n deg t t' xs ws : t = t' -> is_rule n deg t xs ws -> is_rule n deg t' xs ws.
Proof. intros ->. exact (fun x => x). Qed.

Lemma p10 k : IZR (10 ^ Z.of_nat k) = 10 ^ k.
Proof. rewrite <- pow_IZR. reflexivity. Qed.

Lemma dec_rule n deg tn td tol xs ws : tol = IZR tn / IZR td -> dec_check 33 n deg tn td xs ws = true -> is_rule n deg tol (decs xs) (decs ws).
Proof. intros ->. exact (dec_check_ok 33 n deg tn td xs ws). Qed.

Lemma tol30 : 3 / 10 ^ 30 = IZR 3 / IZR (10 ^ Z.of_nat 30). Proof. rewrite p10. reflexivity. Qed.
Lemma tol24 : 2 / 10 ^ 24 = IZR 2 / IZR (10 ^ Z.of_nat 24). Proof. rewrite p10. reflexivity. Qed.
Lemma tol15 : 5 / 10 ^ 15 = IZR 5 / IZR (10 ^ Z.of_nat 15). Proof. rewrite p10. reflexivity. Qed.
Lemma tol16 : 3 / 10 ^ 16 = IZR 3 / IZR (10 ^ Z.of_nat 16). Proof. rewrite p10. reflexivity. Qed.
Lemma tol21 : 2 / 10 ^ 21 = IZR 2 / IZR (10 ^ Z.of_nat 21). Proof. rewrite p10. reflexivity. Qed.

Lemma lob7 : is_rule 7 11 (3 / 10 ^ 30) (lobatto_nodes_tab 7) (lobatto_weights_tab 7).
Proof. apply (dec_rule _ _ _ _ _ _ _ tol30). vm_compute. reflexivity. Qed.
Lemma lob8 : is_rule 8 13 (2 / 10 ^ 24) (lobatto_nodes_tab 8) (lobatto_weights_tab 8).
Proof. apply (dec_rule _ _ _ _ _ _ _ tol24). vm_compute. reflexivity. Qed.
Lemma lob9 : is_rule 9 15 (3 / 10 ^ 30) (lobatto_nodes_tab 9) (lobatto_weights_tab 9).
Proof. apply (dec_rule _ _ _ _ _ _ _ tol30). vm_compute. reflexivity. Qed.
Lemma lob10 : is_rule 10 17 (3 / 10 ^ 30) (lobatto_nodes_tab 10) (lobatto_weights_tab 10).
Proof. apply (dec_rule _ _ _ _ _ _ _ tol30). vm_compute. reflexivity. Qed.
Lemma lob11 : is_rule 11 19 (3 / 10 ^ 30) (lobatto_nodes_tab 11) (lobatto_weights_tab 11).
Proof. apply (dec_rule _ _ _ _ _ _ _ tol30). vm_compute. reflexivity. Qed.
Lemma lob12 : is_rule 12 21 (5 / 10 ^ 15) (lobatto_nodes_tab 12) (lobatto_weights_tab 12).
Proof. apply (dec_rule _ _ _ _ _ _ _ tol15). vm_compute. reflexivity. Qed.
Lemma lob13 : is_rule 13 23 (3 / 10 ^ 30) (lobatto_nodes_tab 13) (lobatto_weights_tab 13).
Proof. apply (dec_rule _ _ _ _ _ _ _ tol30). vm_compute. reflexivity. Qed.
Lemma lob14 : is_rule 14 25 (3 / 10 ^ 30) (lobatto_nodes_tab 14) (lobatto_weights_tab 14).
Proof. apply (dec_rule _ _ _ _ _ _ _ tol30). vm_compute. reflexivity. Qed.
Lemma lob15 : is_rule 15 27 (3 / 10 ^ 30) (lobatto_nodes_tab 15) (lobatto_weights_tab 15).
Proof. apply (dec_rule _ _ _ _ _ _ _ tol30). vm_compute. reflexivity. Qed.
Lemma lob16 : is_rule 16 29 (3 / 10 ^ 30) (lobatto_nodes_tab 16) (lobatto_weights_tab 16).
Proof. apply (dec_rule _ _ _ _ _ _ _ tol30). vm_compute. reflexivity. Qed.
Lemma lob17 : is_rule 17 31 (3 / 10 ^ 30) (lobatto_nodes_tab 17) (lobatto_weights_tab 17).
Proof. apply (dec_rule _ _ _ _ _ _ _ tol30). vm_compute. reflexivity. Qed.
Lemma lob18 : is_rule 18 33 (3 / 10 ^ 30) (lobatto_nodes_tab 18) (lobatto_weights_tab 18).
Proof. apply (dec_rule _ _ _ _ _ _ _ tol30). vm_compute. reflexivity. Qed.
Lemma lob19 : is_rule 19 35 (3 / 10 ^ 30) (lobatto_nodes_tab 19) (lobatto_weights_tab 19).
Proof. apply (dec_rule _ _ _ _ _ _ _ tol30). vm_compute. reflexivity. Qed.
Lemma lob20 : is_rule 20 37 (3 / 10 ^ 30) (lobatto_nodes_tab 20) (lobatto_weights_tab 20).
Proof. apply (dec_rule _ _ _ _ _ _ _ tol30). vm_compute. reflexivity. Qed.
Lemma leg1 : is_rule 1 1 0 (legendre_nodes_tab 1) (legendre_weights_tab 1).
Proof. cbn [legendre_nodes_tab legendre_weights_tab lobatto_pts lobatto_wts decs map fst snd]. unfold dec. cbn [Z.of_nat Z.pow]. small_rule 1 2 with (field). Qed.
Lemma leg2 : is_rule 2 3 (3 / 10 ^ 30) (legendre_nodes_tab 2) (legendre_weights_tab 2).
Proof. apply (dec_rule _ _ _ _ _ _ _ tol30). vm_compute. reflexivity. Qed.
Lemma leg3 : is_rule 3 5 (3 / 10 ^ 30) (legendre_nodes_tab 3) (legendre_weights_tab 3).
Proof. apply (dec_rule _ _ _ _ _ _ _ tol30). vm_compute. reflexivity. Qed.
Lemma leg4 : is_rule 4 7 (3 / 10 ^ 30) (legendre_nodes_tab 4) (legendre_weights_tab 4).
Proof. apply (dec_rule _ _ _ _ _ _ _ tol30). vm_compute. reflexivity. Qed.
Lemma leg5 : is_rule 5 9 (3 / 10 ^ 30) (legendre_nodes_tab 5) (legendre_weights_tab 5).
Proof. apply (dec_rule _ _ _ _ _ _ _ tol30). vm_compute. reflexivity. Qed.
Lemma leg6 : is_rule 6 11 (3 / 10 ^ 30) (legendre_nodes_tab 6) (legendre_weights_tab 6).
Proof. apply (dec_rule _ _ _ _ _ _ _ tol30). vm_compute. reflexivity. Qed.
Lemma leg7 : is_rule 7 13 (3 / 10 ^ 30) (legendre_nodes_tab 7) (legendre_weights_tab 7).
Proof. apply (dec_rule _ _ _ _ _ _ _ tol30). vm_compute. reflexivity. Qed.
Lemma leg8 : is_rule 8 15 (3 / 10 ^ 30) (legendre_nodes_tab 8) (legendre_weights_tab 8).
Proof. apply (dec_rule _ _ _ _ _ _ _ tol30). vm_compute. reflexivity. Qed.
Lemma leg9 : is_rule 9 17 (3 / 10 ^ 30) (legendre_nodes_tab 9) (legendre_weights_tab 9).
Proof. apply (dec_rule _ _ _ _ _ _ _ tol30). vm_compute. reflexivity. Qed.
Lemma leg10 : is_rule 10 19 (3 / 10 ^ 30) (legendre_nodes_tab 10) (legendre_weights_tab 10).
Proof. apply (dec_rule _ _ _ _ _ _ _ tol30). vm_compute. reflexivity. Qed.
Lemma leg11 : is_rule 11 21 (3 / 10 ^ 30) (legendre_nodes_tab 11) (legendre_weights_tab 11).
Proof. apply (dec_rule _ _ _ _ _ _ _ tol30). vm_compute. reflexivity. Qed.
Lemma leg12 : is_rule 12 23 (3 / 10 ^ 30) (legendre_nodes_tab 12) (legendre_weights_tab 12).
Proof. apply (dec_rule _ _ _ _ _ _ _ tol30). vm_compute. reflexivity. Qed.
Lemma leg13 : is_rule 13 25 (3 / 10 ^ 30) (legendre_nodes_tab 13) (legendre_weights_tab 13).
Proof. apply (dec_rule _ _ _ _ _ _ _ tol30). vm_compute. reflexivity. Qed.
Lemma leg14 : is_rule 14 27 (3 / 10 ^ 30) (legendre_nodes_tab 14) (legendre_weights_tab 14).
Proof. apply (dec_rule _ _ _ _ _ _ _ tol30). vm_compute. reflexivity. Qed.
Lemma leg15 : is_rule 15 29 (3 / 10 ^ 30) (legendre_nodes_tab 15) (legendre_weights_tab 15).
Proof. apply (dec_rule _ _ _ _ _ _ _ tol30). vm_compute. reflexivity. Qed.
Lemma leg16 : is_rule 16 31 (3 / 10 ^ 30) (legendre_nodes_tab 16) (legendre_weights_tab 16).
Proof. apply (dec_rule _ _ _ _ _ _ _ tol30). vm_compute. reflexivity. Qed.
Lemma leg17 : is_rule 17 33 (3 / 10 ^ 30) (legendre_nodes_tab 17) (legendre_weights_tab 17).
Proof. apply (dec_rule _ _ _ _ _ _ _ tol30). vm_compute. reflexivity. Qed.
Lemma leg18 : is_rule 18 35 (3 / 10 ^ 30) (legendre_nodes_tab 18) (legendre_weights_tab 18).
Proof. apply (dec_rule _ _ _ _ _ _ _ tol30). vm_compute. reflexivity. Qed.
Lemma leg19 : is_rule 19 37 (3 / 10 ^ 30) (legendre_nodes_tab 19) (legendre_weights_tab 19).
Proof. apply (dec_rule _ _ _ _ _ _ _ tol30). vm_compute. reflexivity. Qed.
Lemma gau6 : is_rule 6 11 (3 / 10 ^ 16) (gauss_pts 6) (gauss_wts 6).
Proof. apply (dec_rule _ _ _ _ _ _ _ tol16). vm_compute. reflexivity. Qed.
Lemma gau7 : is_rule 7 13 (3 / 10 ^ 16) (gauss_pts 7) (gauss_wts 7).
Proof. apply (dec_rule _ _ _ _ _ _ _ tol16). vm_compute. reflexivity. Qed.
Lemma gau8 : is_rule 8 15 (3 / 10 ^ 16) (gauss_pts 8) (gauss_wts 8).
Proof. apply (dec_rule _ _ _ _ _ _ _ tol16). vm_compute. reflexivity. Qed.
Lemma llob2 : is_rule 2 1 0 (lobatto_pts 2) (lobatto_wts 2).
Proof. cbn [legendre_nodes_tab legendre_weights_tab lobatto_pts lobatto_wts decs map fst snd]. unfold dec. cbn [Z.of_nat Z.pow]. small_rule 2 2 with (field). Qed.
Lemma llob4 : is_rule 4 5 (2 / 10 ^ 21) (lobatto_pts 4) (lobatto_wts 4).
Proof. apply (dec_rule _ _ _ _ _ _ _ tol21). vm_compute. reflexivity. Qed.
Lemma llob5 : is_rule 5 7 (2 / 10 ^ 21) (lobatto_pts 5) (lobatto_wts 5).
Proof. apply (dec_rule _ _ _ _ _ _ _ tol21). vm_compute. reflexivity. Qed.
Lemma llob6 : is_rule 6 9 (2 / 10 ^ 21) (lobatto_pts 6) (lobatto_wts 6).
Proof. apply (dec_rule _ _ _ _ _ _ _ tol21). vm_compute. reflexivity. Qed.
Lemma llob7 : is_rule 7 11 (2 / 10 ^ 21) (lobatto_pts 7) (lobatto_wts 7).
Proof. apply (dec_rule _ _ _ _ _ _ _ tol21). vm_compute. reflexivity. Qed.
Lemma llob8 : is_rule 8 13 (2 / 10 ^ 21) (lobatto_pts 8) (lobatto_wts 8).
Proof. apply (dec_rule _ _ _ _ _ _ _ tol21). vm_compute. reflexivity. Qed.

Lemma lobatto_rule n : (1 <= n <= 20)%nat -> is_rule n (lobatto_degree n) (lobatto_tol n) (lobatto_nodes_tab (Z.of_nat n)) (lobatto_weights_tab (Z.of_nat n)).
Proof.
  intros H. destruct n as [|[|[|[|[|[|[|[|[|[|[|[|[|[|[|[|[|[|[|[|[|n]]]]]]]]]]]]]]]]]]]]]; try lia.
  1: exact lob1. 1: exact lob2. 1: exact lob3. 1: exact lob4. 1: exact lob5. 1: exact lob6. 1: exact lob7. 1: exact lob8. 1: exact lob9. 1: exact lob10. 1: exact lob11. 1: exact lob12. 1: exact lob13. 1: exact lob14. 1: exact lob15. 1: exact lob16. 1: exact lob17. 1: exact lob18. 1: exact lob19. 1: exact lob20.
Qed.

Lemma legendre_rule n : (1 <= n <= 19)%nat -> is_rule n (legendre_degree n) (legendre_tol n) (legendre_nodes_tab (Z.of_nat n)) (legendre_weights_tab (Z.of_nat n)).
Proof.
  intros H. destruct n as [|[|[|[|[|[|[|[|[|[|[|[|[|[|[|[|[|[|[|[|n]]]]]]]]]]]]]]]]]]]]; try lia.
  1: exact leg1. 1: exact leg2. 1: exact leg3. 1: exact leg4. 1: exact leg5. 1: exact leg6. 1: exact leg7. 1: exact leg8. 1: exact leg9. 1: exact leg10. 1: exact leg11. 1: exact leg12. 1: exact leg13. 1: exact leg14. 1: exact leg15. 1: exact leg16. 1: exact leg17. 1: exact leg18. 1: exact leg19.
Qed.

Lemma gauss_rule n : (2 <= n <= 8)%nat -> is_rule n (legendre_degree n) (line_gauss_tol n) (gauss_pts (Z.of_nat n)) (gauss_wts (Z.of_nat n)).
Proof.
  intros H. destruct n as [|[|[|[|[|[|[|[|[|n]]]]]]]]]; try lia.
  1: exact gau2. 1: exact gau3. 1: exact gau4. 1: exact gau5. 1: exact gau6. 1: exact gau7. 1: exact gau8.
Qed.

(** line_lobatto_info lists the 3 points in decreasing order *)
Lemma line_lob3 : quad_rule 3 3 0 (fun i => nth i (lobatto_pts 3) 0) (fun i => nth i (lobatto_wts 3) 0).
Proof.
  destruct lob3 as (_ & _ & _ & [D B S P E]).
  assert (Hx : forall i, (i < 3)%nat -> nth i (lobatto_pts 3) 0 = nth (3 - 1 - i) (lobatto_nodes_tab 3) 0).
  { intros i Hi. do 3 (destruct i as [|i]; [reflexivity|]). lia. }
  assert (Hw : forall i, (i < 3)%nat -> nth i (lobatto_wts 3) 0 = nth (3 - 1 - i) (lobatto_weights_tab 3) 0).
  { intros i Hi. do 3 (destruct i as [|i]; [reflexivity|]). lia. }
  constructor.
  - intros i j Hi Hj N. rewrite !Hx by lia. apply D; lia.
  - intros i Hi. rewrite Hx by lia. apply B. lia.
  - intros i Hi. cbv beta. rewrite (Hx (3 - 1 - i)%nat), (Hx i), (Hw (3 - 1 - i)%nat), (Hw i) by lia. apply S. lia.
  - intros i Hi. rewrite (Hw i) by lia. apply P. lia.
  - intros c I HI. specialize (E c I HI).
    replace (rsum 3 (fun i => nth i (lobatto_wts 3) 0 * poly 3 c (nth i (lobatto_pts 3) 0))) with
      (rsum 3 (fun i => nth i (lobatto_weights_tab 3) 0 * poly 3 c (nth i (lobatto_nodes_tab 3) 0))); [exact E|].
    rewrite (rsum_ext 3 (fun i => nth i (lobatto_wts 3) 0 * poly 3 c (nth i (lobatto_pts 3) 0))
      (fun i => nth (3 - 1 - i) (lobatto_weights_tab 3) 0 * poly 3 c (nth (3 - 1 - i) (lobatto_nodes_tab 3) 0))).
    + unfold rsum. cbn [Nat.sub]. ring.
    + intros i Hi. rewrite (Hx i), (Hw i) by lia. reflexivity.
Qed.

Lemma line_lobatto_rule n : (2 <= n <= 8)%nat -> length (lobatto_pts (Z.of_nat n)) = n /\ length (lobatto_wts (Z.of_nat n)) = n /\
  quad_rule n (lobatto_degree n) (line_lobatto_tol n) (fun i => nth i (lobatto_pts (Z.of_nat n)) 0) (fun i => nth i (lobatto_wts (Z.of_nat n)) 0).
Proof.
  intros H. assert (R : n <> 3%nat -> is_rule n (lobatto_degree n) (line_lobatto_tol n) (lobatto_pts (Z.of_nat n)) (lobatto_wts (Z.of_nat n))).
  { intros N. destruct n as [|[|[|[|[|[|[|[|[|n]]]]]]]]]; try lia. 1: exact llob2. 1: exact llob4. 1: exact llob5. 1: exact llob6. 1: exact llob7. 1: exact llob8. }
  destruct (Nat.eq_dec n 3) as [->|N].
  - split; [reflexivity|]. split; [reflexivity|]. exact line_lob3.
  - destruct (R N) as (A & B & _ & C). auto.
Qed.

Lemma upd_nth_error {A} (a : list A) i v j : (i < length a)%nat -> nth_error (upd a i v) j = if (j =? i)%nat then Some v else nth_error a j.
Proof.
  revert i j. induction a as [|h t IH]; intros i j H; cbn [length] in H; [lia|].
  destruct i, j; cbn; try reflexivity. rewrite IH by lia. reflexivity.
Qed.

Lemma stores_spec vs : forall a i, (i + length vs <= length a)%nat ->
  exists a', stores a i vs = Ok a' /\ length a' = length a /\
    forall j, nth_error a' j = if (i <=? j)%nat && (j <? i + length vs)%nat then Some (Some (nth (j - i) vs 0)) else nth_error a j.
Proof.
  induction vs as [|v vs IH]; intros a i H; cbn [stores length] in *.
  - exists a. split; [reflexivity|]. split; [reflexivity|]. intros j.
    destruct (Nat.leb_spec i j), (Nat.ltb_spec j (i + 0)); cbn; try reflexivity; lia.
  - rewrite set_ok by lia. cbn [bind]. destruct (IH (upd a i (Some v)) (S i)) as (a' & E & L & N); [rewrite upd_length; lia|].
    exists a'. split; [exact E|]. rewrite upd_length in L. split; [exact L|]. intros j. rewrite N, upd_nth_error by lia.
    destruct (Nat.leb_spec (S i) j), (Nat.ltb_spec j (S i + length vs)), (Nat.leb_spec i j), (Nat.ltb_spec j (i + S (length vs))), (Nat.eqb_spec j i); cbn [andb]; try lia; try reflexivity.
    + replace (j - i)%nat with (S (j - S i)) by lia. reflexivity.
    + subst j. rewrite Nat.sub_diag. reflexivity.
Qed.

Lemma stores_short vs : forall a i, (length a < i + length vs)%nat -> (i <= length a)%nat -> stores a i vs = Err OOB.
Proof.
  induction vs as [|v vs IH]; intros a i H Hi; cbn [stores length] in *; [lia|].
  destruct (Nat.eq_dec i (length a)) as [->|N].
  - rewrite set_oob by lia. reflexivity.
  - rewrite set_ok by lia. cbn [bind]. apply IH; rewrite upd_length; lia.
Qed.

Lemma stores_wrote n a vs : length vs = n -> (n <= length a)%nat ->
  exists a', stores a 0 vs = Ok a' /\ wrote n (fun i => nth i vs 0) a a'.
Proof.
  intros L H. destruct (stores_spec vs a 0) as (a' & E & La & N); [lia|].
  exists a'. split; [exact E|]. split; [exact La|]. intros i. rewrite N, L. cbn [Nat.leb andb Nat.add]. rewrite Nat.sub_0_r. reflexivity.
Qed.

Lemma tab_lt1 (f : Z -> list R) num : f num = [] -> forall a, stores a 0 (f num) = Ok a.
Proof. intros ->. reflexivity. Qed.

(** sizes without a table *)
Lemma z_unsupported num k : (num < 1 \/ Z.of_nat k < num)%Z -> ~ exists n, (1 <= n <= k)%nat /\ num = Z.of_nat n.
Proof. intros H (n & Hn & ->). lia. Qed.

Ltac unsupported num := 
  destruct num as [|p|p]; [reflexivity| |reflexivity];
  do 5 (try (destruct p as [p|p|]; try reflexivity; try lia)).
Lemma lobatto_nodes_none num : (num < 1 \/ 20 < num)%Z -> lobatto_nodes_tab num = [].
Proof. intros H. unsupported num. Qed.
Lemma lobatto_weights_none num : (num < 1 \/ 20 < num)%Z -> lobatto_weights_tab num = [].
Proof. intros H. unsupported num. Qed.
Lemma legendre_nodes_none num : (num < 1 \/ 19 < num)%Z -> legendre_nodes_tab num = [].
Proof. intros H. unsupported num. Qed.
Lemma legendre_weights_none num : (num < 1 \/ 19 < num)%Z -> legendre_weights_tab num = [].
Proof. intros H. unsupported num. Qed.
Lemma swage_same num : swage_lobatto_nodes_tab num = lobatto_nodes_tab num.
Proof. destruct num as [|p|p]; [reflexivity| |reflexivity]. do 5 (try (destruct p as [p|p|]; try reflexivity)). Qed.
