(** QuadN: 1D kernel, 2D basis and partials, corners, physical position. *)
From Coq Require Import List Arith Lia Bool Reals Lra.
Import ListNotations.
Require Import Verif.Base Verif.NatSum Verif.RBase Verif.RSum Verif.RDer Verif.Poly Verif.Spec_Lagrange Verif.Lagrange_Math
  Verif.Proof_Ref Verif.Proof_Ref5 Verif.Model_HexN Verif.Proof_HexN Verif.Spec_HexN Verif.Proof_HexN2 Verif.Proof_HexN3.
Local Open Scope nat_scope.

Lemma quad_lag_ok N vs Z x i : distinct N Z -> holds N vs Z -> i < N -> quad_lag N vs x i = Ok (ell N Z i x, dell N Z i x).
Proof.
  intros D Hv Hi. unfold quad_lag.
  edestruct (loop_inv (fun m '(n, d, p, c, q) => n = qnum Z x i m /\ d = qden Z i m /\ p = qgrad N Z x i m /\
     (0 < m -> c = (n / d)%R /\ q = (p / d)%R)) N) as ([[[[n d] p] c] q] & E & H1 & H2 & H3 & H4).
  3: { rewrite E. cbn [bind]. destruct H4 as (-> & ->); [lia|]. rewrite H1, H2, H3. rewrite q_ell, q_dell by assumption. reflexivity. }
  - cbv beta iota. unfold qgrad, qden, qnum. cbn [rprod rsum]. repeat (split; [reflexivity|]). lia.
  - intros m [[[[n d] p] c] q] Hm (-> & -> & -> & _).
    assert (En : qnum Z x i (S m) = (qnum Z x i m * (if Nat.eqb m i then 1 else x - Z m))%R) by reflexivity.
    assert (Eg : qgrad N Z x i (S m) = (qgrad N Z x i m + (if Nat.eqb m i then 0 else qpart N Z x i m))%R) by reflexivity.
    assert (Ed : qden Z i (S m) = (qden Z i m * (if Nat.eqb m i then 1 else Z i - Z m))%R) by reflexivity.
    assert (Q : qden Z i (S m) <> 0%R) by (apply (qden_neq0 N); [assumption|assumption|lia]).
    destruct (Nat.eqb_spec m i) as [e|e]; cbn [negb bind].
    + rewrite Rmult_1_r in En, Ed. rewrite Rplus_0_r in Eg. rewrite <- En, <- Ed, <- Eg. rewrite !rdiv_ok by exact Q. cbn [bind].
      eexists. split; [reflexivity|]. cbv beta iota. auto.
    + rewrite (Hv m) by lia. rewrite (Hv i) by lia. cbn [bind].
      assert (P := lag_prod_ok N vs Z x i m Hv). unfold lag_prod in P. rewrite P. cbn [bind].
      rewrite <- En, <- Ed, <- Eg. rewrite !rdiv_ok by exact Q. cbn [bind].
      eexists. split; [reflexivity|]. cbv beta iota. auto.
Qed.

Lemma fill2_ok n (f : nat -> res (R * R)) (g h : nat -> R) (a b : list (option R)) : n <= length a -> n <= length b ->
  (forall i, i < n -> f i = Ok (g i, h i)) ->
  exists a' b', loop n (fun i '(a, b) => do (c, q) <- f i; do a' <- set a i (Some c); do b' <- set b i (Some q); Ok (a', b')) (a, b) = Ok (a', b') /\
    length a' = length a /\ length b' = length b /\ holds n a' g /\ holds n b' h.
Proof.
  intros L1 L2 Hf.
  edestruct (loop_inv (fun m '(u, v) => length u = length a /\ length v = length b /\ holds m u g /\ holds m v h) n) as ([u v] & E & H1 & H2 & H3 & H4).
  3: { exists u, v. split; [exact E|]. split; [exact H1|]. split; [exact H2|]. split; [exact H3|exact H4]. }
  - cbv beta iota. split; [reflexivity|]. split; [reflexivity|]. split; intros i Hi; lia.
  - intros m [u v] Hm (A1 & A2 & A3 & A4). rewrite Hf by exact Hm. cbn [bind]. rewrite !set_ok by lia. cbn [bind].
    eexists. split; [reflexivity|]. cbv beta iota. rewrite !upd_length. split; [exact A1|]. split; [exact A2|].
    split; intros i Hi; apply getu_nth; rewrite nth_upd by lia; (destruct (Nat.eqb_spec i m) as [->|]; [reflexivity|]); apply getu_ok;
    [apply A3|apply A4]; lia.
Qed.

Lemma quad_1D_ok orderN a b x vs Z : let N := orderN + 1 in distinct N Z -> holds N vs Z -> N <= length a -> N <= length b ->
  exists a' b', quad_lagrange_1D orderN a b x vs = Ok (a', b') /\ length a' = length a /\ length b' = length b /\
   holds N a' (fun i => ell N Z i x) /\ holds N b' (fun i => dell N Z i x).
Proof. intros N D Hv La Lb. apply fill2_ok; try assumption. intros i Hi. apply quad_lag_ok; assumption. Qed.

Lemma quad_zero_ok n a b : n <= length a -> n <= length b ->
  exists a' b', quad_zero n a b = Ok (a', b') /\ length a' = length a /\ length b' = length b.
Proof.
  intros La Lb. unfold quad_zero.
  edestruct (loop_inv (fun (m : nat) (st : list (option R) * list (option R)) => let '(u, v) := st in length u = length a /\ length v = length b) n) as ([u v] & E & H1 & H2).
  3: { exists u, v. split; [exact E|]. split; assumption. }
  - cbv beta iota. auto.
  - intros m [u v] Hm (A1 & A2). rewrite !set_ok by lia. cbn [bind]. eexists. split; [reflexivity|]. cbv beta iota. rewrite !upd_length. auto.
Qed.

(** per node data *)
Definition row2 (n : nat) (a : list (option R)) (g0 g1 : nat -> R) : Prop :=
  forall m, m < n -> getu a (m * 2 + 0) = Ok (g0 m) /\ getu a (m * 2 + 1) = Ok (g1 m).

Lemma row2_set n a g0 g1 : row2 n a g0 g1 -> n * 2 + 2 <= length a ->
  row2 (S n) (upd (upd a (n * 2 + 0) (Some (g0 n))) (n * 2 + 1) (Some (g1 n))) g0 g1.
Proof.
  intros H L m Hm. destruct (Nat.eq_dec m n) as [->|e].
  - split; apply getu_nth.
    + rewrite nth_upd_neq by lia. apply nth_upd_eq. lia.
    + apply nth_upd_eq. rewrite upd_length. lia.
  - destruct (H m) as (A & B); [lia|]. split; apply getu_nth; rewrite !nth_upd_neq by lia; apply getu_ok; assumption.
Qed.

Lemma quad_partials_ok orderN vs Z x y w : let N := orderN + 1 in distinct N Z -> holds N vs Z -> quad_room N w ->
  exists w', quad_basis_partials orderN vs x y w = Ok w' /\ quad_room N w' /\
   row2 (N * N) (qw_nodes w') (fun m => Z (m mod N)) (fun m => Z (m / N)) /\
   holds (N * N) (qw_basis w') (fun m => phi2 N Z (m mod N) (m / N) x y) /\
   row2 (N * N) (qw_part w') (fun m => dell N Z (m mod N) x * ell N Z (m / N)%nat y)%R (fun m => ell N Z (m mod N) x * dell N Z (m / N)%nat y)%R.
Proof.
  intros N D Hv Hr. unfold quad_basis_partials. fold N.
  edestruct (loop_inv (fun m w' => quad_room N w' /\
   row2 m (qw_nodes w') (fun m => Z (m mod N)) (fun m => Z (m / N)) /\
   holds m (qw_basis w') (fun m => phi2 N Z (m mod N) (m / N) x y) /\
   row2 m (qw_part w') (fun m => dell N Z (m mod N) x * ell N Z (m / N)%nat y)%R (fun m => ell N Z (m mod N) x * dell N Z (m / N)%nat y)%R) (N * N)) as (w' & E & H1 & H2 & H3 & H4).
  3: { exists w'. split; [exact E|]. split; [exact H1|]. split; [exact H2|]. split; [exact H3|exact H4]. }
  - split; [exact Hr|]. split; [|split]; intros m Hm; lia.
  - clear w Hr. intros m w Hm ((R1 & R2 & R3 & R4 & R5 & R6 & R7) & H1 & H2 & H3). cbv zeta.
    assert (N0 : N <> 0) by lia.
    assert (Hj : m / N < N) by (apply Nat.div_lt_upper_bound; lia).
    assert (Hi : m mod N < N) by (apply Nat.mod_upper_bound; lia).
    replace (m / N + 1 - 1) with (m / N) by lia.
    replace (m + 1 - N * (m / N) - 1) with (m mod N) by (rewrite (Nat.mod_eq m N) by lia; assert (N * (m / N) <= m) by (apply Nat.mul_div_le; lia); lia).
    rewrite Hv by exact Hi. cbn [bind]. rewrite (set_ok (qw_nodes w)) by lia. cbn [bind].
    rewrite Hv by exact Hj. cbn [bind]. rewrite set_ok by (rewrite upd_length; lia). cbn [bind].
    destruct (quad_1D_ok orderN (qw_val1 w) (qw_dval1 w) x vs Z D Hv) as (a1 & b1 & E1 & La & Lb & Ha & Hb); [fold N; lia|fold N; lia|]. fold N in Ha, Hb.
    rewrite E1. cbn [bind]. rewrite Ha by exact Hi. cbn [bind]. rewrite (set_ok (qw_val2 w)) by lia. cbn [bind].
    rewrite Hb by exact Hi. cbn [bind]. rewrite (set_ok (qw_dval2 w)) by lia. cbn [bind].
    destruct (quad_zero_ok N a1 b1) as (a2 & b2 & E2 & La2 & Lb2); [lia|lia|]. rewrite E2. cbn [bind].
    destruct (quad_1D_ok orderN a2 b2 y vs Z D Hv) as (a3 & b3 & E3 & La3 & Lb3 & Ha3 & Hb3); [fold N; lia|fold N; lia|]. fold N in Ha3, Hb3.
    rewrite E3. cbn [bind]. rewrite Ha3 by exact Hj. cbn [bind]. rewrite set_ok by (rewrite upd_length; lia). cbn [bind].
    rewrite Hb3 by exact Hj. cbn [bind]. rewrite set_ok by (rewrite upd_length; lia). cbn [bind].
    destruct (quad_zero_ok N a3 b3) as (a4 & b4 & E4 & La4 & Lb4); [lia|lia|]. rewrite E4. cbn [bind].
    rewrite (getu_nth _ (m * 2 + 0) (ell N Z (m mod N) x)) by (rewrite nth_upd_neq by lia; apply nth_upd_eq; lia). cbn [bind].
    rewrite (getu_nth _ (m * 2 + 1) (ell N Z (m / N) y)) by (apply nth_upd_eq; rewrite upd_length; lia). cbn [bind].
    rewrite (set_ok (qw_basis w)) by lia. cbn [bind].
    rewrite (getu_nth _ (m * 2 + 0) (dell N Z (m mod N) x)) by (rewrite nth_upd_neq by lia; apply nth_upd_eq; lia). cbn [bind].
    rewrite (getu_nth _ (m * 2 + 1) (dell N Z (m / N) y)) by (apply nth_upd_eq; rewrite upd_length; lia). cbn [bind].
    rewrite (set_ok (qw_part w)) by lia. cbn [bind]. rewrite set_ok by (rewrite upd_length; lia). cbn [bind].
    eexists. split; [reflexivity|]. cbn [qw_nodes qw_basis qw_part]. split.
    { unfold quad_room. cbn [qw_nodes qw_val1 qw_dval1 qw_val2 qw_dval2 qw_basis qw_part]. rewrite !upd_length. repeat split; lia. }
    split; [|split].
    + apply (row2_set m (qw_nodes w) (fun m => Z (m mod N)) (fun m => Z (m / N)) H1). lia.
    + intros q Hq. apply getu_nth. rewrite nth_upd by lia. destruct (Nat.eqb_spec q m) as [->|]; [reflexivity|]. apply getu_ok. apply H2. lia.
    + apply (row2_set m (qw_part w) (fun m => dell N Z (m mod N) x * ell N Z (m / N)%nat y)%R (fun m => ell N Z (m mod N) x * dell N Z (m / N)%nat y)%R H3). lia.
Qed.

Lemma quadn_all orderN vs Z x y w : let N := orderN + 1 in distinct N Z -> holds N vs Z -> quad_room N w ->
  exists w', quad_basis_partials orderN vs x y w = Ok w' /\
   forall i j, i < N -> j < N ->
     getu (qw_nodes w') ((i + j * N) * 2 + 0) = Ok (Z i) /\ getu (qw_nodes w') ((i + j * N) * 2 + 1) = Ok (Z j) /\
     getu (qw_basis w') (i + j * N) = Ok (phi2 N Z i j x y) /\
     exists gx gy, getu (qw_part w') ((i + j * N) * 2 + 0) = Ok gx /\ getu (qw_part w') ((i + j * N) * 2 + 1) = Ok gy /\
       is_grad2 (phi2 N Z i j) x y gx gy.
Proof.
  intros N D Hv Hr. destruct (quad_partials_ok orderN vs Z x y w D Hv Hr) as (w' & E & _ & H1 & H2 & H3). exists w'. split; [exact E|].
  intros i j Hi Hj. fold N in H1, H2, H3. assert (Hm : i + j * N < N * N) by nia.
  destruct (digit_lo N j i Hi) as (M1 & M2). rewrite (Nat.add_comm (j * N)) in M1, M2.
  destruct (H1 _ Hm) as (A & B). assert (C := H2 _ Hm). destruct (H3 _ Hm) as (G1 & G2). cbv beta in *. rewrite M1, M2 in *.
  split; [exact A|]. split; [exact B|]. split; [exact C|]. do 2 eexists. split; [exact G1|]. split; [exact G2|].
  unfold is_grad2, phi2. split.
  - apply der_scal_r. apply ell_der.
  - apply der_scal. apply ell_der.
Qed.

Lemma quadn_corners orderN vs Z x y w lc : let N := orderN + 1 in distinct N Z -> holds N vs Z -> quad_room N w -> 8 <= length lc ->
  exists w' lc', quad_basis_partials orderN vs x y w = Ok w' /\ quad_corners orderN (qw_nodes w') lc = Ok lc' /\
   forall c, c < 4 -> getu lc' (c * 2 + 0) = Ok (if c mod 2 =? 0 then Z 0 else Z (N - 1)) /\
                      getu lc' (c * 2 + 1) = Ok (if c / 2 =? 0 then Z 0 else Z (N - 1)).
Proof.
  intros N D Hv Hr L. destruct (quad_partials_ok orderN vs Z x y w D Hv Hr) as (w' & E & _ & H & _). exists w'. fold N in H.
  unfold quad_corners. fold N. cbv zeta.
  assert (Hids : forall c, c < 4 -> exists id, get [0; N - 1; N * N - N; N * N - 1] c = Ok id /\ id < N * N /\
    id mod N = (if c mod 2 =? 0 then 0 else N - 1) /\ id / N = (if c / 2 =? 0 then 0 else N - 1)).
  { assert (K : N <> 0) by lia. intros [|[|[|[|c]]]] Hc; try lia; cbn [get nth_error Nat.eqb Nat.modulo Nat.div Nat.divmod Nat.sub fst snd].
    - exists 0. split; [reflexivity|]. split; [nia|]. split; [apply Nat.mod_0_l; lia|apply Nat.div_0_l; lia].
    - exists (N - 1). split; [reflexivity|]. split; [nia|]. split; [apply Nat.mod_small; lia|apply Nat.div_small; lia].
    - exists (N * N - N). split; [reflexivity|]. split; [nia|]. replace (N * N - N) with ((N - 1) * N) by nia.
      split; [apply Nat.mod_mul; lia|apply Nat.div_mul; lia].
    - exists (N * N - 1). split; [reflexivity|]. split; [nia|]. replace (N * N - 1) with ((N - 1) * N + (N - 1)) by nia.
      destruct (digit_lo N (N - 1) (N - 1)) as (Q1 & Q2); [lia|]. split; assumption. }
  edestruct (loop_inv (fun c a => length a = length lc /\ row2 c a (fun c => if c mod 2 =? 0 then Z 0 else Z (N - 1)) (fun c => if c / 2 =? 0 then Z 0 else Z (N - 1))) 4) as (lc' & E' & _ & H').
  3: { exists lc'. split; [exact E|]. split; [exact E'|]. exact H'. }
  - split; [reflexivity|]. intros m Hm. lia.
  - intros c a Hc (La & Ra). destruct (Hids c Hc) as (id & Ei & Li & M1 & M2). destruct (H id Li) as (A & B).
    unfold loop. cbn [loop_from]. rewrite Ei. cbn [bind]. rewrite A. cbn [bind]. rewrite set_ok by lia. cbn [bind].
    rewrite B. cbn [bind]. rewrite set_ok by (rewrite upd_length; lia). cbn [bind]. eexists. split; [reflexivity|].
    rewrite !upd_length. split; [exact La|].
    assert (T := row2_set c a _ _ Ra). cbv beta in T. rewrite M1, M2 in *.
    destruct (c mod 2 =? 0); destruct (c / 2 =? 0); apply T; lia.
Qed.

Lemma quad_physical_ok orderN xp nd bs (x0 : nat -> R) (c : nat -> nat -> R) (b : nat -> R) : let n2 := (orderN + 1) * (orderN + 1) in
  length xp = 2 -> (forall d, d < 2 -> getu xp d = Ok (x0 d)) ->
  (forall v d, v < n2 -> d < 2 -> getu nd (v * 2 + d) = Ok (c v d)) -> holds n2 bs b ->
  exists xp', quad_physical_position orderN xp nd bs = Ok xp' /\
   forall d, d < 2 -> getu xp' d = Ok (x0 d + rsum n2 (fun v => c v d * b v))%R.
Proof.
  intros n2 L Hx Hc Hb. unfold quad_physical_position. cbv zeta.
  edestruct (loop_inv (fun m a => length a = 2 /\ forall d, d < 2 -> getu a d = Ok (x0 d + rsum m (fun v => c v d * b v))%R) n2) as (xp' & E & _ & H).
  3: { exists xp'. split; [exact E|exact H]. }
  - split; [exact L|]. intros d Hd. rewrite Hx by exact Hd. cbn [rsum]. f_equal. ring.
  - intros m a Hm (La & Ha). unfold loop. cbn [loop_from]. rewrite Ha by lia. cbn [bind]. rewrite !Hc by lia. cbn [bind].
    rewrite Hb by exact Hm. cbn [bind]. rewrite set_ok by lia. cbn [bind].
    rewrite (getu_nth _ 1 (x0 1%nat + rsum m (fun v => c v 1%nat * b v))%R) by (rewrite nth_upd_neq by lia; apply getu_ok; apply Ha; lia). cbn [bind].
    rewrite set_ok by (rewrite upd_length; lia). eexists. split; [reflexivity|]. rewrite !upd_length. split; [exact La|].
    intros [|[|d]] Hd; try lia; apply getu_nth.
    + rewrite nth_upd_neq by lia. rewrite nth_upd_eq by lia. cbn [rsum]. f_equal. ring.
    + rewrite nth_upd_eq by (rewrite upd_length; lia). cbn [rsum]. f_equal. ring.
Qed.
