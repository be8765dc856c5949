(** The tensor rules. *)
From Coq Require Import List Arith ZArith Reals Lia Lra Bool.
Import ListNotations.
Require Import Verif.Base Verif.RBase Verif.RSum Verif.Spec_Poly Verif.Spec_Quad Verif.Model_Quad Verif.Proof_Quad Verif.Proof_Quad2 Verif.Proof_Quad3.
Local Open Scope nat_scope.

Definition row_set (nd m : nat) (v : nat -> R) (a a' : list (option R)) : Prop :=
  length a' = length a /\
  forall i, nth_error a' i = if (m * nd <=? i) && (i <? m * nd + nd) then Some (Some (v (i - m * nd))) else nth_error a i.

Lemma wrote_rows_0 nd v a : wrote_rows nd 0 v a a.
Proof. split; [reflexivity|]. intros i. reflexivity. Qed.

Lemma wrote_rows_S nd n v a a1 a2 : 0 < nd -> wrote_rows nd n v a a1 -> row_set nd n (v n) a1 a2 -> wrote_rows nd (S n) v a a2.
Proof.
  intros P [L1 W] [L2 Rw]. split; [congruence|]. intros i. rewrite Rw, W.
  destruct (Nat.leb_spec (n * nd) i), (Nat.ltb_spec i (n * nd + nd)), (Nat.ltb_spec i (S n * nd)), (Nat.ltb_spec i (n * nd)); cbn [andb]; try nia; try reflexivity.
  assert (E : i / nd = n) by (symmetry; apply Nat.div_unique with (i - n * nd); nia).
  assert (F : i mod nd = i - n * nd) by (rewrite Nat.mod_eq by lia; rewrite E; nia). rewrite E, F. reflexivity.
Qed.

(** * 1D rules of the tensor rules *)
Definition lx (pt : Z -> list R) (q i : nat) : R := if q =? 1 then 0%R else nth i (pt (Z.of_nat q)) 0%R.
Definition lw (wt : Z -> list R) (q i : nat) : R := if q =? 1 then 2%R else nth i (wt (Z.of_nat q)) 0%R.

Definition lens (pt wt : Z -> list R) : Prop := forall q, 2 <= q <= 8 -> length (pt (Z.of_nat q)) = q /\ length (wt (Z.of_nat q)) = q.
Lemma gauss_lens : lens gauss_pts gauss_wts.
Proof. intros q H. destruct (gauss_rule q H) as (A & B & _). auto. Qed.
Lemma lobatto_lens : lens lobatto_pts lobatto_wts.
Proof. intros q H. destruct (line_lobatto_rule q H) as (A & B & _). auto. Qed.

Lemma one_rule : quad_rule 1 1 0 (fun _ => 0%R) (fun _ => 2%R).
Proof.
  pose proof lob1 as (_ & _ & _ & [D B S P E]). cbn [lobatto_nodes_tab lobatto_weights_tab decs map fst snd] in *.
  assert (Z0 : forall i, nth i [dec 0 0] 0%R = 0%R) by (intros [|[|i]]; cbn [nth]; try reflexivity; unfold dec; cbn; lra).
  assert (Z2 : nth 0 [dec 2 0] 0%R = 2%R) by (cbn [nth]; unfold dec; cbn; lra).
  constructor; intros; try lia; try lra.
  specialize (E c I H). cbn [rsum] in *. rewrite Z0, Z2 in E. exact E.
Qed.

Lemma gauss_line_rule q : 1 <= q <= 8 -> quad_rule q (legendre_degree q) (line_gauss_tol q) (lx gauss_pts q) (lw gauss_wts q).
Proof.
  intros H. destruct (Nat.eq_dec q 1) as [->|N]; [exact one_rule|]. destruct (gauss_rule q) as (_ & _ & _ & E); [lia|].
  unfold lx, lw. replace (q =? 1) with false by (symmetry; apply Nat.eqb_neq; exact N). exact E.
Qed.
Lemma lobatto_line_rule q : 1 <= q <= 8 -> quad_rule q (lobatto_degree q) (line_lobatto_tol q) (lx lobatto_pts q) (lw lobatto_wts q).
Proof.
  intros H. destruct (Nat.eq_dec q 1) as [->|N]; [exact one_rule|]. destruct (line_lobatto_rule q) as (_ & _ & E); [lia|].
  unfold lx, lw. replace (q =? 1) with false by (symmetry; apply Nat.eqb_neq; exact N). exact E.
Qed.

Lemma line_ok pt wt q i x w : lens pt wt -> 1 <= q <= 8 -> i < q ->
  line_info pt wt x w (Z.of_nat i + 1) (Z.of_nat q) = Ok (Some (lx pt q i), Some (lw wt q i), Z.of_nat i).
Proof.
  intros L H Hi. unfold line_info, lx, lw. replace (Z.of_nat i + 1 - 1)%Z with (Z.of_nat i) by lia.
  destruct (Z.eqb_spec (Z.of_nat q) 1), (Nat.eqb_spec q 1); try lia; [reflexivity|].
  replace ((2 <=? Z.of_nat q)%Z && (Z.of_nat q <=? 8)%Z) with true by (symmetry; apply andb_true_iff; split; apply Z.leb_le; lia).
  destruct (L q) as [A B]; [lia|]. unfold getz. replace (Z.of_nat i <? 0)%Z with false by (symmetry; apply Z.ltb_ge; lia).
  rewrite Nat2Z.id. rewrite !(get_ok _ _ 0%R) by lia. reflexivity.
Qed.

Lemma line_none pt wt q i x w : (8 < q)%Z -> line_info pt wt x w i q = Ok (x, w, (i - 1)%Z).
Proof.
  intros H. unfold line_info. replace (q =? 1)%Z with false by (symmetry; apply Z.eqb_neq; lia).
  replace (q <=? 8)%Z with false by (symmetry; apply Z.leb_gt; lia). rewrite andb_false_r. reflexivity.
Qed.

Lemma direction_ok pt wt nd m d q i x w pts wts old : lens pt wt -> 1 <= q <= 8 -> i < q ->
  m * nd + d < length pts -> nth_error wts (m * nd + d) = Some (Some old) ->
  direction (line_info pt wt) nd m d (Z.of_nat i + 1) (Z.of_nat q) (x, w, pts, wts) =
  Ok (Some (lx pt q i), Some (lw wt q i), upd pts (m * nd + d) (Some (lx pt q i)), upd wts (m * nd + d) (Some (old * lw wt q i)%R)).
Proof.
  intros L H Hi Lp Hw. unfold direction. rewrite line_ok by assumption. cbn [bind var].
  rewrite set_ok by exact Lp. cbn [bind var]. unfold getu. rewrite Hw. cbn [bind].
  rewrite set_ok; [reflexivity|]. apply nth_error_Some. congruence.
Qed.

(** indices *)
Lemma quot_nat m q : 0 < q -> Z.quot (Z.of_nat m) (Z.of_nat q) = Z.of_nat (m / q).
Proof. intros H. rewrite Z.quot_div_nonneg by lia. rewrite Nat2Z.inj_div. reflexivity. Qed.

Ltac lens_tac := rewrite ?upd_length; try assumption; try lia.
Ltac look := repeat (rewrite upd_nth_error by lens_tac).
Ltac eqbs := repeat match goal with |- context [?a =? ?b] => destruct (Nat.eqb_spec a b); try lia end.

Lemma grid_lt q m d : 0 < q -> grid q m d < q.
Proof. intros H. apply Nat.mod_upper_bound. lia. Qed.
Lemma grid0 q m : grid q m 0 = m mod q.
Proof. unfold grid. cbn [Nat.pow]. rewrite Nat.div_1_r. reflexivity. Qed.
Lemma grid_top q m d : 0 < q -> m < q ^ S d -> grid q m d = m / q ^ d.
Proof.
  intros Q H. unfold grid. apply Nat.mod_small. apply Nat.div_lt_upper_bound; [apply Nat.pow_nonzero; lia|]. cbn [Nat.pow] in H. nia.
Qed.

(** 2D index arithmetic *)
Lemma index2 q m : 0 < q -> m < q * q ->
  (Z.quot (Z.of_nat m) (Z.of_nat q) + 1)%Z = (Z.of_nat (grid q m 1) + 1)%Z /\
  (Z.of_nat m + 1 - Z.of_nat q * (Z.quot (Z.of_nat m) (Z.of_nat q) + 1 - 1))%Z = (Z.of_nat (grid q m 0) + 1)%Z.
Proof.
  intros Q H. rewrite quot_nat by exact Q. rewrite grid_top by (try exact Q; cbn [Nat.pow]; nia). rewrite grid0. cbn [Nat.pow]. rewrite Nat.mul_1_r.
  split; [reflexivity|]. pose proof (Nat.div_mod m q). nia.
Qed.


Lemma wrote_0 v a : wrote 0 v a a.
Proof. split; [reflexivity|]. intros i. reflexivity. Qed.
Lemma wrote_S n v a a1 b : wrote n v a a1 -> n < length a -> b = Some (v n) -> wrote (S n) v a (upd a1 n b).
Proof.
  intros [L W] H ->. split; [rewrite upd_length; exact L|]. intros i. rewrite upd_nth_error by lia. rewrite W.
  destruct (Nat.eqb_spec i n), (Nat.ltb_spec i n), (Nat.ltb_spec i (S n)); try lia; try reflexivity. subst i. reflexivity.
Qed.

Ltac row_tac :=
  split; [lens_tac; reflexivity|];
  intros i; look; 
  match goal with |- context [(?a <=? i) && (i <? ?b)] => destruct (Nat.leb_spec a i), (Nat.ltb_spec i b); cbn [andb] end;
  eqbs; try reflexivity; subst i;
  match goal with |- context [?a + ?d - ?a] => replace (a + d - a) with d by lia end; cbv beta iota; rewrite ?Rmult_1_l; reflexivity.

Ltac dir := rewrite (direction_ok _ _ _ _ _ _ _ _ _ _ _ 1%R); [|assumption|assumption|apply grid_lt; lia|lens_tac|look; eqbs; reflexivity].


Definition rows (nd q : nat) (f : nat -> R) (m d : nat) : R := f (grid q m d).

Lemma lobatto_2d_run q pts wts : 1 <= q <= 8 -> q ^ 2 * 2 <= length pts -> q ^ 2 * 2 <= length wts ->
  exists pts' wts', lobatto_2d pts wts (Z.of_nat q) = Ok (pts', wts') /\
    wrote_rows 2 (q ^ 2) (rows 2 q (lx lobatto_pts q)) pts pts' /\ wrote_rows 2 (q ^ 2) (rows 2 q (lw lobatto_wts q)) wts wts'.
Proof.
  intros Hq Lp Lw. pose proof lobatto_lens as HL. unfold lobatto_2d, line_lobatto_info.
  replace (Z.to_nat (Z.of_nat q * Z.of_nat q)) with (q ^ 2) by (rewrite <- Nat2Z.inj_mul, Nat2Z.id; cbn [Nat.pow]; lia).
  match goal with |- context [loop ?n ?f ?s0] => destruct (loop_inv (fun k '(p, w) => 
    wrote_rows 2 k (rows 2 q (lx lobatto_pts q)) pts p /\ wrote_rows 2 k (rows 2 q (lw lobatto_wts q)) wts w) n f s0) as ([p w] & E & Hf) end.
  - split; apply wrote_rows_0.
  - intros m [p w] Hm [Hp Hw]. assert (Lp' := proj1 Hp). assert (Lw' := proj1 Hw).
    cbn [Nat.pow] in Hm, Lp, Lw. rewrite !Nat.mul_1_r in *. assert (m * 2 + 2 <= q * q * 2) by nia.
    destruct (index2 q m) as [-> ->]; [lia|exact Hm|].
    eexists (_, _). split.
    + rewrite set_ok by lens_tac. cbn [bind]. rewrite set_ok by lens_tac. cbn [bind]. dir. cbn [bind]. dir. cbn [bind]. reflexivity.
    + split; (eapply wrote_rows_S; [lia|eassumption|]; unfold rows; row_tac).
  - exists p, w. rewrite E. auto.
Qed.

Ltac run2 := rewrite set_ok by lens_tac; cbn [bind].
Lemma gauss_2d_run q pts wts tot : 1 <= q <= 8 -> q ^ 2 * 2 <= length pts -> q ^ 2 * 2 <= length wts -> q ^ 2 <= length tot ->
  exists pts' wts' tot', gauss_2d pts wts tot (Z.of_nat q) = Ok (pts', wts', tot') /\
    wrote_rows 2 (q ^ 2) (rows 2 q (lx gauss_pts q)) pts pts' /\ wrote_rows 2 (q ^ 2) (rows 2 q (lw gauss_wts q)) wts wts' /\
    wrote (q ^ 2) (fun m => rows 2 q (lw gauss_wts q) m 0 * rows 2 q (lw gauss_wts q) m 1)%R tot tot'.
Proof.
  intros Hq Lp Lw Lt. pose proof gauss_lens as HL. unfold gauss_2d, line_gauss_info.
  replace (Z.to_nat (Z.of_nat q * Z.of_nat q)) with (q ^ 2) by (rewrite <- Nat2Z.inj_mul, Nat2Z.id; cbn [Nat.pow]; lia).
  match goal with |- context [loop ?n ?f ?s0] => destruct (loop_inv (fun k '(p, w, t) => 
    wrote_rows 2 k (rows 2 q (lx gauss_pts q)) pts p /\ wrote_rows 2 k (rows 2 q (lw gauss_wts q)) wts w /\
    wrote k (fun m => rows 2 q (lw gauss_wts q) m 0 * rows 2 q (lw gauss_wts q) m 1)%R tot t) n f s0) as ([[p w] t] & E & Hf) end.
  - split; [|split]; [apply wrote_rows_0|apply wrote_rows_0|apply wrote_0].
  - intros m [[p w] t] Hm (Hp & Hw & Ht). assert (Lp' := proj1 Hp). assert (Lw' := proj1 Hw). assert (Lt' := proj1 Ht).
    cbn [Nat.pow] in Hm, Lp, Lw, Lt. rewrite !Nat.mul_1_r in *. assert (m * 2 + 2 <= q * q * 2) by nia.
    destruct (index2 q m) as [-> ->]; [lia|exact Hm|].
    eexists (_, _, _). split.
    + do 3 run2. dir. cbn [bind]. dir. cbn [bind].
      unfold getu. look. eqbs. cbn [bind]. rewrite set_ok by lens_tac. cbn [bind]. reflexivity.
    + split; [|split]; [(eapply wrote_rows_S; [lia|eassumption|]; unfold rows; row_tac)..|].
      assert (Q : forall (l : list (option R)) i a b, upd (upd l i a) i b = upd l i b) by (induction l as [|h l IH]; intros [|i] a b; cbn; try reflexivity; rewrite IH; reflexivity).
      rewrite Q. apply wrote_S; [exact Ht|lia|]. unfold rows. rewrite !Rmult_1_l. reflexivity.
  - exists p, w, t. rewrite E. auto.
Qed.

(** 3D index arithmetic *)
Lemma index3 q m : 0 < q -> m < q * q * q ->
  let p12 := (Z.of_nat q * Z.of_nat q)%Z in
  let k := (Z.quot (Z.of_nat m) p12 + 1)%Z in
  let jj := (Z.of_nat m + 1 - p12 * (k - 1))%Z in
  let j := (Z.quot (jj - 1) (Z.of_nat q) + 1)%Z in
  k = (Z.of_nat (grid q m 2) + 1)%Z /\ j = (Z.of_nat (grid q m 1) + 1)%Z /\ (jj - Z.of_nat q * (j - 1))%Z = (Z.of_nat (grid q m 0) + 1)%Z.
Proof.
  intros Q H p12 k jj j.
  assert (P12 : p12 = Z.of_nat (q * q)) by (unfold p12; lia).
  assert (K : k = (Z.of_nat (m / (q * q)) + 1)%Z) by (unfold k; rewrite P12, quot_nat by nia; reflexivity).
  assert (JJ : (jj - 1)%Z = Z.of_nat (m mod (q * q))).
  { unfold jj. rewrite K, P12. pose proof (Nat.div_mod m (q * q) ltac:(nia)). nia. }
  assert (J : j = (Z.of_nat ((m mod (q * q)) / q) + 1)%Z) by (unfold j; rewrite JJ, quot_nat by exact Q; reflexivity).
  assert (G2 : grid q m 2 = m / (q * q)) by (rewrite grid_top by (try exact Q; cbn [Nat.pow]; nia); cbn [Nat.pow]; rewrite Nat.mul_1_r; reflexivity).
  assert (G1 : grid q m 1 = (m mod (q * q)) / q).
  { unfold grid. cbn [Nat.pow]. rewrite Nat.mul_1_r. rewrite Nat.mod_mul_r by lia. rewrite Nat.mul_comm, Nat.div_add by lia. rewrite (Nat.div_small (m mod q)) by (apply Nat.mod_upper_bound; lia). reflexivity. }
  split; [rewrite G2; exact K|]. split; [rewrite G1; exact J|].
  rewrite J, grid0. replace jj with (Z.of_nat (m mod (q * q)) + 1)%Z by lia.
  assert (M : m mod q = (m mod (q * q)) mod q) by (rewrite Nat.mod_mul_r, Nat.mul_comm, Nat.mod_add, Nat.mod_mod by lia; reflexivity).
  rewrite M. pose proof (Nat.div_mod (m mod (q * q)) q ltac:(lia)). nia.
Qed.

Lemma cube_nat q : Z.to_nat (Z.of_nat q * Z.of_nat q * Z.of_nat q) = q ^ 3.
Proof. rewrite <- !Nat2Z.inj_mul, Nat2Z.id. cbn [Nat.pow]. lia. Qed.

Lemma lobatto_3d_run q pts wts : 1 <= q <= 8 -> q ^ 3 * 3 <= length pts -> q ^ 3 * 3 <= length wts ->
  exists pts' wts', lobatto_3d pts wts (Z.of_nat q) = Ok (pts', wts') /\
    wrote_rows 3 (q ^ 3) (rows 3 q (lx lobatto_pts q)) pts pts' /\ wrote_rows 3 (q ^ 3) (rows 3 q (lw lobatto_wts q)) wts wts'.
Proof.
  intros Hq Lp Lw. pose proof lobatto_lens as HL. unfold lobatto_3d, line_lobatto_info. rewrite cube_nat.
  match goal with |- context [loop ?n ?f ?s0] => destruct (loop_inv (fun k '(p, w) => 
    wrote_rows 3 k (rows 3 q (lx lobatto_pts q)) pts p /\ wrote_rows 3 k (rows 3 q (lw lobatto_wts q)) wts w) n f s0) as ([p w] & E & Hf) end.
  - split; apply wrote_rows_0.
  - intros m [p w] Hm [Hp Hw]. assert (Lp' := proj1 Hp). assert (Lw' := proj1 Hw).
    assert (m * 3 + 3 <= q ^ 3 * 3) by nia. assert (Hm' : m < q * q * q) by (cbn [Nat.pow] in Hm; lia).
    destruct (index3 q m ltac:(lia) Hm') as (I2 & I1 & I0). cbv zeta in I0, I1, I2 |- *. rewrite I0, I1, I2.
    eexists (_, _). split.
    + do 3 run2. do 3 (dir; cbn [bind]). reflexivity.
    + split; (eapply wrote_rows_S; [lia|eassumption|]; unfold rows; row_tac).
  - exists p, w. rewrite E. auto.
Qed.

Lemma upd_upd {A} (l : list A) i a b : upd (upd l i a) i b = upd l i b.
Proof. revert i. induction l as [|h l IH]; intros [|i]; cbn; try reflexivity. rewrite IH. reflexivity. Qed.

Lemma gauss_3d_run q pts wts tot : 1 <= q <= 8 -> q ^ 3 * 3 <= length pts -> q ^ 3 * 3 <= length wts -> q ^ 3 <= length tot ->
  exists pts' wts' tot', gauss_3d pts wts tot (Z.of_nat q) = Ok (pts', wts', tot') /\
    wrote_rows 3 (q ^ 3) (rows 3 q (lx gauss_pts q)) pts pts' /\ wrote_rows 3 (q ^ 3) (rows 3 q (lw gauss_wts q)) wts wts' /\
    wrote (q ^ 3) (fun m => rows 3 q (lw gauss_wts q) m 0 * rows 3 q (lw gauss_wts q) m 1 * rows 3 q (lw gauss_wts q) m 2)%R tot tot'.
Proof.
  intros Hq Lp Lw Lt. pose proof gauss_lens as HL. unfold gauss_3d, line_gauss_info. rewrite cube_nat.
  match goal with |- context [loop ?n ?f ?s0] => destruct (loop_inv (fun k '(p, w, t) => 
    wrote_rows 3 k (rows 3 q (lx gauss_pts q)) pts p /\ wrote_rows 3 k (rows 3 q (lw gauss_wts q)) wts w /\
    wrote k (fun m => rows 3 q (lw gauss_wts q) m 0 * rows 3 q (lw gauss_wts q) m 1 * rows 3 q (lw gauss_wts q) m 2)%R tot t) n f s0) as ([[p w] t] & E & Hf) end.
  - split; [|split]; [apply wrote_rows_0|apply wrote_rows_0|apply wrote_0].
  - intros m [[p w] t] Hm (Hp & Hw & Ht). assert (Lp' := proj1 Hp). assert (Lw' := proj1 Hw). assert (Lt' := proj1 Ht).
    assert (m * 3 + 3 <= q ^ 3 * 3) by nia. assert (Hm' : m < q * q * q) by (cbn [Nat.pow] in Hm; lia).
    destruct (index3 q m ltac:(lia) Hm') as (I2 & I1 & I0). cbv zeta in I0, I1, I2 |- *. rewrite I0, I1, I2.
    eexists (_, _, _). split.
    + do 4 run2. do 3 (dir; cbn [bind]). unfold getu. look. eqbs. cbn [bind]. rewrite set_ok by lens_tac. cbn [bind]. reflexivity.
    + split; [|split]; [(eapply wrote_rows_S; [lia|eassumption|]; unfold rows; row_tac)..|].
      rewrite upd_upd. apply wrote_S; [exact Ht|lia|]. unfold rows. rewrite !Rmult_1_l. reflexivity.
  - exists p, w, t. rewrite E. auto.
Qed.

(** 4D index arithmetic *)
Lemma div_nat m q : Z.div (Z.of_nat m) (Z.of_nat q) = Z.of_nat (m / q).
Proof. symmetry. apply Nat2Z.inj_div. Qed.
Lemma index4 q m : 0 < q -> m < q ^ 4 ->
  index_4d (Z.of_nat m) (Z.of_nat q) 4 = Ok (Z.of_nat (grid q m 0) + 1, Z.of_nat (grid q m 1) + 1, Z.of_nat (grid q m 2) + 1, Z.of_nat (grid q m 3) + 1)%Z.
Proof.
  intros Q H. unfold index_4d. cbn [Z.ltb Z.compare Pos.compare Pos.compare_cont].
  change (4 - 1)%Z with 3%Z. change (4 - 2)%Z with 2%Z.
  replace (Z.of_nat q ^ 3)%Z with (Z.of_nat (q ^ 3)) by (rewrite Nat2Z.inj_pow; reflexivity).
  replace (Z.of_nat q ^ 2)%Z with (Z.of_nat (q ^ 2)) by (rewrite Nat2Z.inj_pow; reflexivity).
  assert (N2 : q ^ 2 <> 0) by (apply Nat.pow_nonzero; lia). assert (N3 : q ^ 3 <> 0) by (apply Nat.pow_nonzero; lia).
  rewrite !div_nat. set (l := m / q ^ 3). set (r3 := m mod q ^ 3). set (k := r3 / q ^ 2). set (r2 := r3 mod q ^ 2). set (j := r2 / q). set (i := r2 mod q).
  pose proof (Nat.div_mod m (q ^ 3) N3) as D3. fold l r3 in D3. pose proof (Nat.div_mod r3 (q ^ 2) N2) as D2. fold k r2 in D2.
  pose proof (Nat.div_mod r2 q ltac:(lia)) as D1. fold j i in D1.
  replace (Z.of_nat m + 1 - Z.of_nat (q ^ 3) * (Z.of_nat l + 1 - 1) - 1)%Z with (Z.of_nat r3) by nia.
  rewrite div_nat. fold k.
  replace (Z.of_nat m + 1 - Z.of_nat (q ^ 2) * (Z.of_nat k + 1 - 1) - Z.of_nat (q ^ 3) * (Z.of_nat l + 1 - 1))%Z with (Z.of_nat r2 + 1)%Z by nia.
  replace (Z.of_nat r2 + 1 - 1)%Z with (Z.of_nat r2) by lia. rewrite quot_nat by exact Q. fold j.
  replace (Z.of_nat r2 + 1 - Z.of_nat q * (Z.of_nat j + 1 - 1))%Z with (Z.of_nat i + 1)%Z by nia.
  assert (P3 : q ^ 3 = q ^ 2 * q) by (cbn [Nat.pow]; lia). assert (P2 : q ^ 2 = q * q) by (cbn [Nat.pow]; lia).
  assert (B3 : r3 < q ^ 3) by (apply Nat.mod_upper_bound; exact N3). assert (B2 : r2 < q ^ 2) by (apply Nat.mod_upper_bound; exact N2).
  assert (B1 : i < q) by (apply Nat.mod_upper_bound; lia).
  assert (G3 : grid q m 3 = l) by (apply grid_top; [exact Q|exact H]).
  assert (Kq : k < q) by (apply Nat.div_lt_upper_bound; [exact N2|lia]). assert (Jq : j < q) by (apply Nat.div_lt_upper_bound; lia).
  assert (G2 : grid q m 2 = k).
  { unfold grid. replace (m / q ^ 2) with (k + l * q) by (apply Nat.div_unique with r2; nia). rewrite Nat.mod_add by lia. apply Nat.mod_small. exact Kq. }
  assert (G1 : grid q m 1 = j).
  { unfold grid. replace (q ^ 1) with q by (cbn [Nat.pow]; lia). replace (m / q) with (j + (k + l * q) * q) by (apply Nat.div_unique with i; nia). rewrite Nat.mod_add by lia. apply Nat.mod_small. exact Jq. }
  assert (G0 : grid q m 0 = i).
  { rewrite grid0. symmetry. apply Nat.mod_unique with (j + (k + l * q) * q); nia. }
  rewrite G0, G1, G2, G3. reflexivity.
Qed.

Lemma tess_nat q : Z.to_nat (Z.of_nat q * Z.of_nat q * Z.of_nat q * Z.of_nat q) = q ^ 4.
Proof. rewrite <- !Nat2Z.inj_mul, Nat2Z.id. cbn [Nat.pow]. lia. Qed.

Lemma lobatto_4d_run q pts wts : 1 <= q <= 8 -> q ^ 4 * 4 <= length pts -> q ^ 4 * 4 <= length wts ->
  exists pts' wts', lobatto_4d pts wts (Z.of_nat q) 4 = Ok (pts', wts') /\
    wrote_rows 4 (q ^ 4) (rows 4 q (lx lobatto_pts q)) pts pts' /\ wrote_rows 4 (q ^ 4) (rows 4 q (lw lobatto_wts q)) wts wts'.
Proof.
  intros Hq Lp Lw. pose proof lobatto_lens as HL. unfold lobatto_4d, line_lobatto_info. rewrite tess_nat.
  match goal with |- context [loop ?n ?f ?s0] => destruct (loop_inv (fun k '(p, w) => 
    wrote_rows 4 k (rows 4 q (lx lobatto_pts q)) pts p /\ wrote_rows 4 k (rows 4 q (lw lobatto_wts q)) wts w) n f s0) as ([p w] & E & Hf) end.
  - split; apply wrote_rows_0.
  - intros m [p w] Hm [Hp Hw]. assert (Lp' := proj1 Hp). assert (Lw' := proj1 Hw).
    assert (m * 4 + 4 <= q ^ 4 * 4) by nia. rewrite index4 by (try lia; exact Hm). cbn [bind].
    eexists (_, _). split.
    + do 4 run2. do 4 (dir; cbn [bind]). reflexivity.
    + split; (eapply wrote_rows_S; [lia|eassumption|]; unfold rows; row_tac).
  - exists p, w. rewrite E. auto.
Qed.
