From Coq Require Import Reals Arith Lra Lia.
Require Import Verif.RSum Verif.RBase Verif.Spec_Mat Verif.Spec_LU Verif.Det Verif.Model_LU.
Open Scope R_scope.

Lemma mset_eq a i j v : mset a i j v i j = v.
Proof. unfold mset. rewrite !Nat.eqb_refl. reflexivity. Qed.
Lemma mset_neq a i j v r c : r <> i \/ c <> j -> mset a i j v r c = a r c.
Proof. intros H. unfold mset. destruct (Nat.eqb_spec r i), (Nat.eqb_spec c j); simpl; try reflexivity. lia. Qed.

Lemma TINY_pos : 0 < TINY.
Proof. unfold TINY. apply Rinv_0_lt_compat. apply pow_lt. lra. Qed.

(** ** scaling *)
Lemma row_big_gen n a i : let m := row_big n a i in
  0 <= m /\ (forall j, (j < n)%nat -> Rabs (a i j) <= m) /\ (m = 0 \/ exists j, (j < n)%nat /\ m = Rabs (a i j)).
Proof.
  unfold row_big. induction n as [|n IH]; simpl.
  - split; [lra|]. split; [intros; lia|left; reflexivity].
  - destruct IH as (P & Q & W). set (m := fold_up n _ 0) in *.
    destruct (Rlt_dec m (Rabs (a i n))) as [L|L].
    + split; [lra|]. split; [intros j Hj; destruct (Nat.eq_dec j n) as [->|]; [lra|]; specialize (Q j ltac:(lia)); lra|].
      right. exists n. split; [lia|reflexivity].
    + split; [exact P|]. split; [intros j Hj; destruct (Nat.eq_dec j n) as [->|]; [lra|]; apply Q; lia|].
      destruct W as [W|(j & Hj & W)]; [left; exact W|right; exists j; split; [lia|exact W]].
Qed.
Lemma row_big_zero n a i : row_big n a i = 0 <-> row_zero n a i.
Proof.
  destruct (row_big_gen n a i) as (P & Q & W). split.
  - intros E j Hj. specialize (Q j Hj). rewrite E in Q. destruct (Req_dec (a i j) 0) as [Z|Z]; [exact Z|].
    apply Rabs_pos_lt in Z. lra.
  - intros Z. destruct W as [W|(j & Hj & W)]; [exact W|]. rewrite W, (Z j Hj). apply Rabs_R0.
Qed.

Lemma lu_scale_gen n a vv0 m : 
  match fold_up m (fun i o => match o with
    | None => None
    | Some vv => if Req_EM_T (row_big n a i) 0 then None else Some (fset vv i (row_big n a i))
    end) (Some vv0) with
  | None => exists i, (i < m)%nat /\ row_zero n a i
  | Some vv => forall i, (i < m)%nat -> vv i = row_big n a i /\ 0 < vv i
  end.
Proof.
  induction m as [|m IH]; simpl; [intros; lia|].
  destruct (fold_up m _ (Some vv0)) as [vv|].
  - destruct (Req_EM_T (row_big n a m) 0) as [E|E].
    + exists m. split; [lia|]. apply row_big_zero. exact E.
    + intros i Hi. destruct (Nat.eq_dec i m) as [->|Ne].
      * rewrite fset_eq. split; [reflexivity|]. destruct (row_big_gen n a m) as (P & _). lra.
      * rewrite fset_neq by exact Ne. apply IH. lia.
  - destruct IH as (i & Hi & Z). exists i. split; [lia|exact Z].
Qed.
Lemma lu_scale_some n a vv0 vv : lu_scale n a vv0 = Some vv -> forall i, (i < n)%nat -> 0 < vv i.
Proof. intros H i Hi. assert (G := lu_scale_gen n a vv0 n). unfold lu_scale in H. rewrite H in G. apply G. exact Hi. Qed.
Lemma lu_scale_none n a vv0 : lu_scale n a vv0 = None <-> exists i, (i < n)%nat /\ row_zero n a i.
Proof.
  assert (G := lu_scale_gen n a vv0 n). split.
  - intros H. unfold lu_scale in H. rewrite H in G. exact G.
  - intros (i & Hi & Z). destruct (lu_scale n a vv0) as [vv|] eqn:E; [|reflexivity]. exfalso.
    unfold lu_scale in E. rewrite E in G. destruct (G i Hi) as (G1 & G2). apply row_big_zero in Z. lra.
Qed.

(** ** one column *)
Lemma dot_sub_sum a i j m : dot_sub a i j m = a i j - rsum m (fun k => a i k * a k j).
Proof. unfold dot_sub. induction m as [|m IH]; simpl; [ring|]. rewrite IH. ring. Qed.

Lemma part_a_spec j a : forall m, (m <= j)%nat -> let a1 := fold_up m (fun i a => mset a i j (dot_sub a i j i)) a in
  (forall i, (i < m)%nat -> a1 i j = a i j - rsum i (fun k => a i k * a1 k j)) /\
  (forall r c, c <> j \/ (m <= r)%nat -> a1 r c = a r c).
Proof.
  induction m as [|m IH]; intros Hm; cbn [fold_up].
  - split; [intros; lia|reflexivity].
  - destruct (IH ltac:(lia)) as (P & Q). set (a1 := fold_up m _ a) in *. cbv zeta.
    set (v := dot_sub a1 m j m). assert (Ev : v = a1 m j - rsum m (fun k => a1 m k * a1 k j)) by apply dot_sub_sum.
    assert (K : forall k, (k < m)%nat -> mset a1 m j v k j = a1 k j) by (intros k Hk; apply mset_neq; lia).
    split.
    + intros i Hi. destruct (Nat.eq_dec i m) as [->|Ne].
      * rewrite mset_eq, Ev at 1. rewrite (Q m j) by lia. f_equal. apply rsum_ext. intros k Hk.
        rewrite K by exact Hk. rewrite (Q m k) by lia. reflexivity.
      * rewrite K by lia. rewrite (P i) by lia. f_equal. apply rsum_ext. intros k Hk. rewrite K by lia. reflexivity.
    + intros r c H. rewrite mset_neq by lia. apply Q. lia.
Qed.

Lemma part_b_spec n j vv a : (j < n)%nat -> (forall i, (i < n)%nat -> 0 < vv i) ->
  let '(a2, big, imax) := part_b n j vv a in
  (forall i, (j <= i < n)%nat -> a2 i j = a i j - rsum j (fun k => a i k * a k j)) /\
  (forall r c, c <> j \/ (r < j)%nat -> a2 r c = a r c) /\
  (j <= imax < n)%nat /\ (forall i, (j <= i < n)%nat -> vv i * Rabs (a2 i j) <= vv imax * Rabs (a2 imax j)).
Proof.
  intros Hj Hvv. unfold part_b.
  assert (G : forall m, (m <= n - j)%nat -> let '(a2, big, imax) := fold_up m (fun d st => let '(a, big, imax) := st in
    let i := (j + d)%nat in
    let sum := dot_sub a i j j in
    let a' := mset a i j sum in
    let temp := vv i * Rabs sum in
    if Rle_dec big temp then (a', temp, i) else (a', big, imax)) (a, 0, j) in
    (forall i, (j <= i < j + m)%nat -> a2 i j = a i j - rsum j (fun k => a i k * a k j)) /\
    (forall r c, c <> j \/ (r < j)%nat \/ (j + m <= r)%nat -> a2 r c = a r c) /\
    (j <= imax < n)%nat /\ (m <> O -> (imax < j + m)%nat /\ big = vv imax * Rabs (a2 imax j)) /\ (m = O -> big = 0) /\
    (forall i, (j <= i < j + m)%nat -> vv i * Rabs (a2 i j) <= big)).
  { induction m as [|m IH]; intros Hm; cbn [fold_up].
    - repeat split; intros; try lia; try reflexivity.
    - specialize (IH ltac:(lia)). destruct (fold_up m _ (a, 0, j)) as [[a1 big] imax]. destruct IH as (P1 & P2 & P3 & P4 & P5 & P6).
      cbv zeta. set (s := dot_sub a1 (j + m) j j).
      assert (Es : s = a (j + m)%nat j - rsum j (fun k => a (j + m)%nat k * a k j)).
      { unfold s. rewrite dot_sub_sum. rewrite (P2 (j + m)%nat j) by lia. f_equal. apply rsum_ext. intros k Hk.
        rewrite (P2 (j + m)%nat k), (P2 k j) by lia. reflexivity. }
      assert (A1 : forall i, (j <= i < j + S m)%nat -> mset a1 (j + m) j s i j = a i j - rsum j (fun k => a i k * a k j)).
      { intros i Hi. destruct (Nat.eq_dec i (j + m)) as [->|Ne]; [rewrite mset_eq; exact Es|]. rewrite mset_neq by lia. apply P1. lia. }
      assert (A2 : forall r c, c <> j \/ (r < j)%nat \/ (j + S m <= r)%nat -> mset a1 (j + m) j s r c = a r c).
      { intros r c H. rewrite mset_neq by lia. apply P2. lia. }
      assert (A3 : forall i, (j <= i < j + m)%nat -> mset a1 (j + m) j s i j = a1 i j) by (intros i Hi; apply mset_neq; lia).
      destruct (Rle_dec big (vv (j + m)%nat * Rabs s)) as [L|L].
      + split; [exact A1|]. split; [exact A2|]. split; [lia|]. split; [intros _; rewrite mset_eq; split; [lia|reflexivity]|]. split; [lia|].
        intros i Hi. destruct (Nat.eq_dec i (j + m)) as [->|Ne]; [rewrite mset_eq; lra|]. rewrite A3 by lia. specialize (P6 i ltac:(lia)). lra.
      + split; [exact A1|]. split; [exact A2|]. split; [lia|].
        assert (M0 : m <> O).
        { intros E. apply L. rewrite (P5 E). apply Rmult_le_pos; [left; apply Hvv; lia|apply Rabs_pos]. }
        destruct (P4 M0) as (Q1 & Q2).
        split; [intros _; rewrite A3 by lia; split; [lia|exact Q2]|]. split; [lia|].
        intros i Hi. destruct (Nat.eq_dec i (j + m)) as [->|Ne]; [rewrite mset_eq; lra|]. rewrite A3 by lia. apply P6. lia. }
  specialize (G (n - j)%nat ltac:(lia)). destruct (fold_up (n - j) _ (a, 0, j)) as [[a2 big] imax].
  destruct G as (P1 & P2 & P3 & P4 & P5 & P6). destruct (P4 ltac:(lia)) as (Q1 & Q2).
  split; [intros i Hi; apply P1; lia|]. split; [|split; [exact P3|intros i Hi; rewrite <- Q2; apply P6; lia]].
  intros r c H. destruct (Nat.lt_ge_cases r n) as [Hr|Hr]; [|apply P2; lia]. apply P2. lia.
Qed.

Lemma swap_rows_spec n p q a i c : (c < n)%nat -> swap_rows n p q a i c = a (tr q p i) c.
Proof.
  unfold swap_rows. intros Hc.
  assert (G : forall m, (forall i c, (c < m)%nat -> fold_up (S:=mat) m (fun k (a : mat) => let temp := a p k in mset (mset a p k (a q k)) q k temp) a i c = a (tr q p i) c)
    /\ (forall i c, (m <= c)%nat -> fold_up (S:=mat) m (fun k (a : mat) => let temp := a p k in mset (mset a p k (a q k)) q k temp) a i c = a i c)).
  { induction m as [|m (IH1 & IH2)]; cbn [fold_up]; [split; intros; [lia|reflexivity]|].
    set (b := fold_up m _ a) in *. cbv zeta. split; intros r d Hd.
    - destruct (Nat.eq_dec d m) as [->|Ne].
      + unfold tr. destruct (Nat.eqb_spec r q) as [->|Nq]; [rewrite mset_eq; apply IH2; lia|].
        rewrite mset_neq by lia. destruct (Nat.eqb_spec r p) as [->|Np]; [rewrite mset_eq; apply IH2; lia|].
        rewrite mset_neq by lia. apply IH2. lia.
      + rewrite !mset_neq by lia. apply IH1. lia.
    - rewrite !mset_neq by lia. apply IH2. lia. }
  apply (G n). exact Hc.
Qed.

Lemma scale_col_spec n j a : (j < n)%nat -> let a' := scale_col n j a in let p := if Req_EM_T (a j j) 0 then TINY else a j j in
  a' j j = p /\ (forall i, (j < i < n)%nat -> a' i j = a i j * (1 / p)) /\ (forall r c, c <> j \/ (r < j)%nat -> a' r c = a r c).
Proof.
  intros Hj. unfold scale_col. cbv zeta.
  set (p := if Req_EM_T (a j j) 0 then TINY else a j j).
  set (a1 := if Req_EM_T (a j j) 0 then mset a j j TINY else a).
  assert (E1 : a1 j j = p) by (unfold a1, p; destruct (Req_EM_T (a j j) 0); [apply mset_eq|reflexivity]).
  assert (E2 : forall r c, r <> j \/ c <> j -> a1 r c = a r c) by (intros r c H; unfold a1; destruct (Req_EM_T (a j j) 0); [apply mset_neq; exact H|reflexivity]).
  destruct (Nat.ltb_spec j (n - 1)) as [L|L].
  2: { split; [exact E1|]. split; [intros; lia|]. intros r c H. apply E2. lia. }
  rewrite E1.
  assert (G : forall m, let a' := fold_up m (fun d a => mset a (j + 1 + d) j (a (j + 1 + d)%nat j * (1 / p))) a1 in
    (forall i, (j < i < j + 1 + m)%nat -> a' i j = a1 i j * (1 / p)) /\ (forall r c, c <> j \/ (r <= j)%nat \/ (j + 1 + m <= r)%nat -> a' r c = a1 r c)).
  { induction m as [|m (IH1 & IH2)]; cbn [fold_up]; [split; intros; [lia|reflexivity]|].
    set (b := fold_up m _ a1) in *. cbv zeta. split.
    - intros i Hi. destruct (Nat.eq_dec i (j + 1 + m)) as [->|Ne]; [rewrite mset_eq; rewrite IH2 by lia; reflexivity|].
      rewrite mset_neq by lia. apply IH1. lia.
    - intros r c H. rewrite mset_neq by lia. apply IH2. lia. }
  destruct (G (n - (j + 1))%nat) as (G1 & G2). cbv zeta in *. set (a' := fold_up (n - (j + 1)) _ a1) in *.
  split; [rewrite G2 by lia; exact E1|]. split.
  - intros i Hi. rewrite G1 by lia. rewrite E2 by lia. reflexivity.
  - intros r c H. destruct (Nat.eq_dec c j) as [->|]; [|rewrite G2 by lia; apply E2; lia]. rewrite G2 by lia. apply E2. lia.
Qed.

Lemma crout_spec n j s : (j < n)%nat -> (forall i, (i < n)%nat -> 0 < lu_vv s i) ->
  let s' := crout_col n j s in let a := lu_a s in let a' := lu_a s' in
  exists q (u w : nat -> R),
  (j <= q < n)%nat /\ (forall k, lu_indx s' k = if Nat.eqb k j then q else lu_indx s k) /\
  lu_parity s' = (if Nat.eqb q j then 1 else -1) * lu_parity s /\ (forall i, (i < n)%nat -> 0 < lu_vv s' i) /\
  (forall i c, (i < n)%nat -> (c < n)%nat -> c <> j -> a' i c = a (tr j q i) c) /\
  (forall i, (i < j)%nat -> u i = a i j - rsum i (fun k => a i k * u k) /\ a' i j = u i) /\
  (forall i, (j <= i < n)%nat -> w i = a i j - rsum j (fun k => a i k * u k)) /\
  ((w q <> 0 /\ a' j j = w q /\ forall i, (j < i < n)%nat -> a' i j = w (tr j q i) * (1 / w q)) \/
   ((forall i, (j <= i < n)%nat -> w i = 0) /\ a' j j = TINY /\ forall i, (j < i < n)%nat -> a' i j = 0)).
Proof.
  intros Hj Hvv. unfold crout_col.
  destruct (part_a_spec j (lu_a s) j (le_n j)) as (A1 & A2). fold (part_a j (lu_a s)) in A1, A2. set (a1 := part_a j (lu_a s)) in *.
  assert (B := part_b_spec n j (lu_vv s) a1 Hj Hvv). destruct (part_b n j (lu_vv s) a1) as [[a2 big] q].
  destruct B as (B1 & B2 & B3 & B4). cbv zeta. cbn [lu_a lu_indx lu_parity lu_vv].
  set (a3 := if negb (Nat.eqb q j) then swap_rows n q j a2 else a2).
  assert (C : forall i c, (i < n)%nat -> (c < n)%nat -> a3 i c = a2 (tr j q i) c).
  { intros i c Hi Hc. unfold a3. destruct (Nat.eqb_spec q j) as [->|]; simpl; [|rewrite swap_rows_spec by exact Hc; reflexivity].
    unfold tr. destruct (Nat.eqb_spec i j) as [->|]; reflexivity. }
  destruct (scale_col_spec n j a3 Hj) as (S1 & S2 & S3). set (a' := scale_col n j a3) in *. cbv zeta in S1, S2.
  assert (Tjq : tr j q j = q) by (unfold tr; rewrite Nat.eqb_refl; reflexivity).
  assert (Tlt : forall i, (i < n)%nat -> (tr j q i < n)%nat) by (intros i Hi; apply tr_lt; lia).
  assert (Tlow : forall i, (i < j)%nat -> tr j q i = i) by (intros i Hi; unfold tr; destruct (Nat.eqb_spec i j), (Nat.eqb_spec i q); lia).
  assert (Tge : forall i, (j <= i)%nat -> (j <= tr j q i)%nat) by (intros i Hi; unfold tr; destruct (Nat.eqb_spec i j), (Nat.eqb_spec i q); lia).
  exists q, (fun k => a1 k j), (fun i => a2 i j). split; [exact B3|]. split; [reflexivity|].
  split; [destruct (Nat.eqb q j); simpl; ring|].
  split. { intros i Hi. destruct (Nat.eqb q j); simpl; [apply Hvv; exact Hi|]. unfold fset. destruct (Nat.eqb_spec i q); [apply Hvv; exact Hj|apply Hvv; exact Hi]. }
  split. { intros i c Hi Hc Hcj. rewrite S3 by lia. rewrite C by assumption. rewrite B2 by lia. apply A2. lia. }
  split. { intros i Hi. split; [apply A1; exact Hi|]. rewrite S3 by lia. rewrite C by lia. rewrite Tlow by exact Hi. apply B2. lia. }
  split. { intros i Hi. rewrite B1 by exact Hi. rewrite (A2 i j) by lia. f_equal. apply rsum_ext. intros k Hk. rewrite (A2 i k) by lia. reflexivity. }
  assert (E3 : a3 j j = a2 q j) by (rewrite C by lia; rewrite Tjq; reflexivity).
  destruct (Req_EM_T (a3 j j) 0) as [Z|Z].
  - right. rewrite E3 in Z.
    assert (Z' : forall i, (j <= i < n)%nat -> a2 i j = 0).
    { intros i Hi. specialize (B4 i Hi). rewrite Z, Rabs_R0, Rmult_0_r in B4. destruct (Req_dec (a2 i j) 0) as [|N]; [assumption|].
      apply Rabs_pos_lt in N. assert (0 < lu_vv s i * Rabs (a2 i j)) by (apply Rmult_lt_0_compat; [apply Hvv; lia|exact N]). lra. }
    split; [exact Z'|]. split; [exact S1|]. intros i Hi. rewrite S2 by exact Hi. rewrite C by lia. rewrite Z' by (split; [apply Tge; lia|apply Tlt; lia]). ring.
  - left. rewrite E3 in Z, S1, S2. split; [exact Z|]. split; [exact S1|]. intros i Hi. rewrite S2 by exact Hi. rewrite C by lia. reflexivity.
Qed.

Lemma row_swap_tr p q A i j : row_swap p q A i j = A (tr p q i) j.
Proof. unfold row_swap, tr. destruct (Nat.eqb i p); [reflexivity|]. destruct (Nat.eqb i q); reflexivity. Qed.
Lemma apply_swaps_ext f g m A : (forall k, (k < m)%nat -> f k = g k) -> apply_swaps f m A = apply_swaps g m A.
Proof. induction m as [|m IH]; intros H; simpl; [reflexivity|]. rewrite IH by (intros; apply H; lia). rewrite (H m) by lia. reflexivity. Qed.

Definition LUInv (n : nat) (A : mat) (j : nat) (s : lu) (t : nat -> R) : Prop :=
  let a := lu_a s in let P := apply_swaps (lu_indx s) j A in
  (forall k, (k < j)%nat -> (k <= lu_indx s k < n)%nat) /\
  lu_parity s = swap_sign (lu_indx s) j /\
  (forall i, (i < n)%nat -> 0 < lu_vv s i) /\
  (forall i c, (i < n)%nat -> (j <= c < n)%nat -> a i c = P i c) /\
  (forall i c, (i <= c)%nat -> (c < j)%nat -> P i c + (if Nat.eqb i c then t c else 0) = a i c + rsum i (fun k => a i k * a k c)) /\
  (forall i c, (c < i < n)%nat -> (c < j)%nat -> P i c = rsum (S c) (fun k => a i k * a k c)) /\
  (forall c, (c < j)%nat -> a c c <> 0 /\ (t c = 0 \/ (t c = TINY /\ a c c = TINY /\ forall i, (c < i < n)%nat -> a i c = 0))).

Lemma crout_inv n A j s t : (j < n)%nat -> LUInv n A j s t -> exists t', LUInv n A (S j) (crout_col n j s) t'.
Proof.
  intros Hj (I1 & I2 & I3 & I4 & I5 & I6 & I7).
  destruct (crout_spec n j s Hj I3) as (q & u & w & Q & X & Par & VV & O & U & W & D). cbv zeta in *.
  set (s' := crout_col n j s) in *. set (a := lu_a s) in *. set (a' := lu_a s') in *.
  assert (Tjq : tr j q j = q) by (unfold tr; rewrite Nat.eqb_refl; reflexivity).
  assert (Tlt : forall i, (i < n)%nat -> (tr j q i < n)%nat) by (intros i Hi; apply tr_lt; lia).
  assert (Tlow : forall i, (i < j)%nat -> tr j q i = i) by (intros i Hi; unfold tr; destruct (Nat.eqb_spec i j), (Nat.eqb_spec i q); lia).
  assert (Tge : forall i, (j <= i)%nat -> (j <= tr j q i)%nat) by (intros i Hi; unfold tr; destruct (Nat.eqb_spec i j), (Nat.eqb_spec i q); lia).
  assert (Xj : lu_indx s' j = q) by (rewrite X, Nat.eqb_refl; reflexivity).
  assert (Xk : forall k, (k < j)%nat -> lu_indx s' k = lu_indx s k) by (intros k Hk; rewrite X; destruct (Nat.eqb_spec k j); [lia|reflexivity]).
  assert (PE : forall i c, apply_swaps (lu_indx s') (S j) A i c = apply_swaps (lu_indx s) j A (tr j q i) c).
  { intros i c. cbn [apply_swaps]. rewrite Xj, row_swap_tr. rewrite (apply_swaps_ext _ (lu_indx s)) by exact Xk. reflexivity. }
  set (P := apply_swaps (lu_indx s) j A) in *. set (P' := apply_swaps (lu_indx s') (S j) A) in *.
  assert (Q1 : w q = P q j - rsum j (fun k => a q k * u k)) by (rewrite W by lia; rewrite I4 by lia; reflexivity).
  exists (fset t j (a' j j - w q)). unfold LUInv. cbv zeta. fold a' P'.
  split. { intros k Hk. destruct (Nat.eq_dec k j) as [->|]; [lia|]. rewrite Xk by lia. apply I1. lia. }
  split. { rewrite Par, I2. unfold swap_sign. cbn [rprod]. rewrite Xj. rewrite Rmult_comm. f_equal. apply rprod_ext. intros k Hk. rewrite Xk by lia. reflexivity. }
  split; [exact VV|].
  split. { intros i c Hi Hc. rewrite O by lia. rewrite PE. apply I4; [apply Tlt; exact Hi|lia]. }
  assert (Arow : forall i k, (i < n)%nat -> (k < j)%nat -> a' i k = a (tr j q i) k) by (intros; apply O; lia).
  split.
  { intros i c Hic Hc. rewrite PE. destruct (Nat.eq_dec c j) as [->|Ne].
    - rewrite fset_eq. destruct (Nat.eq_dec i j) as [->|Nij].
      + rewrite Nat.eqb_refl, Tjq. rewrite (rsum_ext j (fun k => a' j k * a' k j) (fun k => a q k * u k)).
        * rewrite Q1. ring.
        * intros k Hk. rewrite Arow by lia. rewrite Tjq. destruct (U k Hk) as (_ & ->). reflexivity.
      + destruct (Nat.eqb_spec i j); [lia|]. rewrite Tlow by lia. destruct (U i ltac:(lia)) as (U1 & U2). rewrite U2.
        rewrite (rsum_ext i (fun k => a' i k * a' k j) (fun k => a i k * u k)).
        * rewrite U1. rewrite <- I4 by lia. ring.
        * intros k Hk. rewrite Arow by lia. rewrite Tlow by lia. destruct (U k ltac:(lia)) as (_ & ->). reflexivity.
    - rewrite Tlow by lia. rewrite (fset_neq t c j) by exact Ne. rewrite I5 by lia.
      rewrite (O i c) by lia. rewrite Tlow by lia. f_equal. apply rsum_ext. intros k Hk. rewrite !O by lia. rewrite !Tlow by lia. reflexivity. }
  split.
  { intros i c Hic Hc. rewrite PE. destruct (Nat.eq_dec c j) as [->|Ne].
    - cbn [rsum]. rewrite (rsum_ext j (fun k => a' i k * a' k j) (fun k => a (tr j q i) k * u k)).
      2: { intros k Hk. rewrite Arow by lia. destruct (U k ltac:(lia)) as (_ & ->). reflexivity. }
      assert (Ti : (j <= tr j q i < n)%nat) by (split; [apply Tge; lia|apply Tlt; lia]).
      assert (Wi := W _ Ti). rewrite (I4 (tr j q i) j) in Wi by lia.
      assert (E : a' i j * a' j j = w (tr j q i)).
      { destruct D as [(D1 & D2 & D3)|(D1 & D2 & D3)].
        - rewrite D2, D3 by lia. field. exact D1.
        - rewrite D3 by lia. rewrite (D1 _ Ti). ring. }
      rewrite E, Wi. ring.
    - rewrite I6 by (destruct (Nat.lt_ge_cases i j); [rewrite Tlow by assumption; lia|split; [assert (Z := Tge i); lia|apply Tlt; lia]]||lia).
      apply rsum_ext. intros k Hk. rewrite !O by lia. rewrite (Tlow k) by lia. reflexivity. }
  intros c Hc. destruct (Nat.eq_dec c j) as [->|Ne].
  - rewrite fset_eq. destruct D as [(D1 & D2 & D3)|(D1 & D2 & D3)].
    + rewrite D2. split; [exact D1|left; ring].
    + rewrite D2. assert (T := TINY_pos). split; [lra|]. right. rewrite (D1 q) by lia. split; [ring|]. split; [reflexivity|exact D3].
  - rewrite fset_neq by exact Ne. rewrite O by lia. rewrite Tlow by lia. destruct (I7 c ltac:(lia)) as (N & T). split; [exact N|].
    destruct T as [T|(T1 & T2 & T3)]; [left; exact T|right]. split; [exact T1|]. split; [exact T2|].
    intros i Hi. rewrite O by lia. apply T3. split; [|apply Tlt; lia]. destruct (Nat.lt_ge_cases i j); [rewrite Tlow by assumption; lia|assert (Z := Tge i); lia].
Qed.

Lemma LU_inv n A indx0 vv0 s : LU_decompos n A indx0 vv0 = Some s -> exists t, LUInv n A n s t.
Proof.
  unfold LU_decompos. destruct (lu_scale n A vv0) as [vv|] eqn:E; [|discriminate]. intros H. injection H as <-.
  assert (V := lu_scale_some _ _ _ _ E).
  assert (G : forall m, (m <= n)%nat -> exists t, LUInv n A m (fold_up m (crout_col n) {| lu_a := A; lu_indx := indx0; lu_parity := 1; lu_vv := vv |}) t).
  { induction m as [|m IH]; intros Hm.
    - exists (fun _ => 0). cbn [fold_up]. unfold LUInv. cbn. repeat split; intros; try lia; try reflexivity. apply V. assumption.
    - destruct (IH ltac:(lia)) as (t & I). cbn [fold_up]. eapply crout_inv; [lia|exact I]. }
  apply G. lia.
Qed.
