From Coq Require Import Reals Arith Lra Lia.
Require Import Verif.RSum Verif.RBase Verif.Spec_Mat Verif.Spec_LU Verif.Spec_Float Verif.Det Verif.Model_LU Verif.Model_FloatLU Verif.Proof_LU Verif.Proof_LU2 Verif.Float_Base.
Open Scope R_scope.

Section F.
Context (u : R) (rnd : R -> R).
Hypothesis Hu : 0 <= u < 1.
Hypothesis Hr : rounds u rnd.
Notation within := (within u).
Notation dotted := (dotted u).
Notation dot_subf := (dot_subf rnd).
Notation part_bf := (part_bf rnd).

Lemma TINYf_pos : 0 < TINYf rnd.
Proof. apply (rnd_pos u Hu rnd Hr). apply TINY_pos. Qed.

Lemma dot_subf_dotted a i j m : dotted m m (a i j) (dot_subf a i j m) (fun k => a i k * a k j).
Proof. unfold Model_FloatLU.dot_subf. apply (dot_loop u Hu rnd Hr (fun k => a i k * a k j)). Qed.
Lemma dot_subf_ext a b i j m : a i j = b i j -> (forall k, (k < m)%nat -> a i k = b i k /\ a k j = b k j) -> dot_subf a i j m = dot_subf b i j m.
Proof.
  intros E H. unfold Model_FloatLU.dot_subf. rewrite E. induction m as [|m IH]; cbn [fold_up]; [reflexivity|]. rewrite IH by (intros; apply H; lia). destruct (H m ltac:(lia)) as (-> & ->). reflexivity.
Qed.

Lemma part_af_spec j a : forall m, (m <= j)%nat -> let a1 := fold_up m (fun i a => mset a i j (dot_subf a i j i)) a in
  (forall i, (i < m)%nat -> dotted i i (a i j) (a1 i j) (fun k => a i k * a1 k j)) /\
  (forall r c, c <> j \/ (m <= r)%nat -> a1 r c = a r c).
Proof.
  induction m as [|m IH]; intros Hm; cbn [fold_up].
  - split; [intros; lia|reflexivity].
  - destruct (IH ltac:(lia)) as (P & Q). set (a1 := fold_up m _ a) in *. cbv zeta.
    set (v := dot_subf a1 m j m). assert (Ev : dotted m m (a1 m j) v (fun k => a1 m k * a1 k j)) by apply dot_subf_dotted.
    assert (K : forall k, (k < m)%nat -> mset a1 m j v k j = a1 k j) by (intros k Hk; apply mset_neq; lia).
    split.
    + intros i Hi. destruct (Nat.eq_dec i m) as [->|Ne].
      * rewrite mset_eq. rewrite <- (Q m j) by lia. eapply dotted_ext; [|exact Ev]. intros k Hk. cbv beta.
        rewrite K by exact Hk. rewrite (Q m k) by lia. reflexivity.
      * rewrite K by lia. eapply dotted_ext; [|apply P; lia]. intros k Hk. cbv beta. rewrite K by lia. reflexivity.
    + intros r c H. rewrite mset_neq by lia. apply Q. lia.
Qed.

Lemma part_bf_spec n j vv a : (j < n)%nat -> (forall i, (i < n)%nat -> 0 < vv i) ->
  let '(a2, big, imax) := part_bf n j vv a in
  (forall i, (j <= i < n)%nat -> dotted j j (a i j) (a2 i j) (fun k => a i k * a k j)) /\
  (forall r c, c <> j \/ (r < j)%nat -> a2 r c = a r c) /\
  (j <= imax < n)%nat /\ (forall i, (j <= i < n)%nat -> rnd (vv i * Rabs (a2 i j)) <= rnd (vv imax * Rabs (a2 imax j))).
Proof.
  intros Hj Hvv. unfold Model_FloatLU.part_bf.
  assert (G : forall m, (m <= n - j)%nat -> let '(a2, big, imax) := fold_up m (fun d st => let '(a, big, imax) := st in
    let i := (j + d)%nat in
    let sum := dot_subf a i j j in
    let a' := mset a i j sum in
    let temp := rnd (vv i * Rabs sum) in
    if Rle_dec big temp then (a', temp, i) else (a', big, imax)) (a, 0, j) in
    (forall i, (j <= i < j + m)%nat -> dotted j j (a i j) (a2 i j) (fun k => a i k * a k j)) /\
    (forall r c, c <> j \/ (r < j)%nat \/ (j + m <= r)%nat -> a2 r c = a r c) /\
    (j <= imax < n)%nat /\ (m <> O -> (imax < j + m)%nat /\ big = rnd (vv imax * Rabs (a2 imax j))) /\ (m = O -> big = 0) /\
    (forall i, (j <= i < j + m)%nat -> rnd (vv i * Rabs (a2 i j)) <= big)).
  { induction m as [|m IH]; intros Hm; cbn [fold_up].
    - repeat split; intros; try lia; try reflexivity.
    - specialize (IH ltac:(lia)). destruct (fold_up m _ (a, 0, j)) as [[a1 big] imax]. destruct IH as (P1 & P2 & P3 & P4 & P5 & P6).
      cbv zeta. set (s := dot_subf a1 (j + m) j j).
      assert (Es : dotted j j (a (j + m)%nat j) s (fun k => a (j + m)%nat k * a k j)).
      { unfold s. assert (D := dot_subf_dotted a1 (j + m)%nat j j). rewrite (P2 (j + m)%nat j) in D by lia. eapply dotted_ext; [|exact D]. intros k Hk. cbv beta.
        rewrite (P2 (j + m)%nat k), (P2 k j) by lia. reflexivity. }
      assert (A1 : forall i, (j <= i < j + S m)%nat -> dotted j j (a i j) (mset a1 (j + m) j s i j) (fun k => a i k * a k j)).
      { intros i Hi. destruct (Nat.eq_dec i (j + m)) as [->|Ne]; [rewrite mset_eq; exact Es|]. rewrite mset_neq by lia. apply P1. lia. }
      assert (A2 : forall r c, c <> j \/ (r < j)%nat \/ (j + S m <= r)%nat -> mset a1 (j + m) j s r c = a r c).
      { intros r c H. rewrite mset_neq by lia. apply P2. lia. }
      assert (A3 : forall i, (j <= i < j + m)%nat -> mset a1 (j + m) j s i j = a1 i j) by (intros i Hi; apply mset_neq; lia).
      destruct (Rle_dec big (rnd (vv (j + m)%nat * Rabs s))) as [L|L].
      + split; [exact A1|]. split; [exact A2|]. split; [lia|]. split; [intros _; rewrite mset_eq; split; [lia|reflexivity]|]. split; [lia|].
        intros i Hi. destruct (Nat.eq_dec i (j + m)) as [->|Ne]; [rewrite mset_eq; lra|]. rewrite A3 by lia. specialize (P6 i ltac:(lia)). lra.
      + split; [exact A1|]. split; [exact A2|]. split; [lia|].
        assert (M0 : m <> O).
        { intros E. apply L. rewrite (P5 E). apply (rnd_sign u Hu rnd Hr). apply Rmult_le_pos; [left; apply Hvv; lia|apply Rabs_pos]. }
        destruct (P4 M0) as (Q1 & Q2).
        split; [intros _; rewrite A3 by lia; split; [lia|exact Q2]|]. split; [lia|].
        intros i Hi. destruct (Nat.eq_dec i (j + m)) as [->|Ne]; [rewrite mset_eq; lra|]. rewrite A3 by lia. apply P6. lia. }
  specialize (G (n - j)%nat ltac:(lia)). destruct (fold_up (n - j) _ (a, 0, j)) as [[a2 big] imax].
  destruct G as (P1 & P2 & P3 & P4 & P5 & P6). destruct (P4 ltac:(lia)) as (Q1 & Q2).
  split; [intros i Hi; apply P1; lia|]. split; [|split; [exact P3|intros i Hi; rewrite <- Q2; apply P6; lia]].
  intros r c H. destruct (Nat.lt_ge_cases r n) as [Hrn|Hrn]; [|apply P2; lia]. apply P2. lia.
Qed.

Lemma scale_colf_spec n j a : (j < n)%nat -> let a' := scale_colf rnd n j a in let p := if Req_EM_T (a j j) 0 then TINYf rnd else a j j in
  a' j j = p /\ (forall i, (j < i < n)%nat -> a' i j = rnd (a i j * rnd (1 / p))) /\ (forall r c, c <> j \/ (r < j)%nat -> a' r c = a r c).
Proof.
  intros Hj. unfold scale_colf. cbv zeta.
  set (p := if Req_EM_T (a j j) 0 then TINYf rnd else a j j).
  set (a1 := if Req_EM_T (a j j) 0 then mset a j j (TINYf rnd) else a).
  assert (E1 : a1 j j = p) by (unfold a1, p; destruct (Req_EM_T (a j j) 0); [apply mset_eq|reflexivity]).
  assert (E2 : forall r c, r <> j \/ c <> j -> a1 r c = a r c) by (intros r c H; unfold a1; destruct (Req_EM_T (a j j) 0); [apply mset_neq; exact H|reflexivity]).
  destruct (Nat.ltb_spec j (n - 1)) as [L|L].
  2: { split; [exact E1|]. split; [intros; lia|]. intros r c H. apply E2. lia. }
  rewrite E1.
  assert (G : forall m, let a' := fold_up m (fun d a => mset a (j + 1 + d) j (rnd (a (j + 1 + d)%nat j * rnd (1 / p)))) a1 in
    (forall i, (j < i < j + 1 + m)%nat -> a' i j = rnd (a1 i j * rnd (1 / p))) /\ (forall r c, c <> j \/ (r <= j)%nat \/ (j + 1 + m <= r)%nat -> a' r c = a1 r c)).
  { induction m as [|m (IH1 & IH2)]; cbn [fold_up]; [split; intros; [lia|reflexivity]|].
    set (b := fold_up m _ a1) in *. cbv zeta. split.
    - intros i Hi. destruct (Nat.eq_dec i (j + 1 + m)) as [->|Ne]; [rewrite mset_eq; rewrite IH2 by lia; reflexivity|].
      rewrite mset_neq by lia. apply IH1. lia.
    - intros r c H. rewrite mset_neq by lia. apply IH2. lia. }
  destruct (G (n - (j + 1))%nat) as (G1 & G2). cbv zeta in *. set (a' := fold_up (n - (j + 1)) _ a1) in *.
  split; [rewrite G2 by lia; exact E1|]. split.
  - intros i Hi. rewrite G1 by lia. rewrite E2 by lia. reflexivity.
  - intros r c H. destruct (Nat.eq_dec c j) as [->|]; [|rewrite G2 by lia; apply E2; lia]. rewrite G2 by lia. apply E2. lia.
Qed.

Lemma croutf_spec n j s : (j < n)%nat -> (forall i, (i < n)%nat -> 0 < lu_vv s i) ->
  let s' := crout_colf rnd n j s in let a := lu_a s in let a' := lu_a s' in
  exists q (v w : nat -> R),
  (j <= q < n)%nat /\ (forall k, lu_indx s' k = if Nat.eqb k j then q else lu_indx s k) /\
  lu_parity s' = (if Nat.eqb q j then 1 else -1) * lu_parity s /\ (forall i, (i < n)%nat -> 0 < lu_vv s' i) /\
  (forall i c, (i < n)%nat -> (c < n)%nat -> c <> j -> a' i c = a (tr j q i) c) /\
  (forall i, (i < j)%nat -> dotted i i (a i j) (v i) (fun k => a i k * v k) /\ a' i j = v i) /\
  (forall i, (j <= i < n)%nat -> dotted j j (a i j) (w i) (fun k => a i k * v k)) /\
  ((w q <> 0 /\ a' j j = w q /\ forall i, (j < i < n)%nat -> a' i j = rnd (w (tr j q i) * rnd (1 / w q))) \/
   ((forall i, (j <= i < n)%nat -> w i = 0) /\ a' j j = TINYf rnd /\ forall i, (j < i < n)%nat -> a' i j = 0)).
Proof.
  intros Hj Hvv. unfold crout_colf.
  destruct (part_af_spec j (lu_a s) j (le_n j)) as (A1 & A2). fold (part_af rnd j (lu_a s)) in A1, A2. set (a1 := part_af rnd j (lu_a s)) in *.
  assert (B := part_bf_spec n j (lu_vv s) a1 Hj Hvv). destruct (part_bf n j (lu_vv s) a1) as [[a2 big] q].
  destruct B as (B1 & B2 & B3 & B4). cbv zeta. cbn [lu_a lu_indx lu_parity lu_vv].
  set (a3 := if negb (Nat.eqb q j) then swap_rows n q j a2 else a2).
  assert (C : forall i c, (i < n)%nat -> (c < n)%nat -> a3 i c = a2 (tr j q i) c).
  { intros i c Hi Hc. unfold a3. destruct (Nat.eqb_spec q j) as [->|]; simpl; [|rewrite swap_rows_spec by exact Hc; reflexivity].
    unfold tr. destruct (Nat.eqb_spec i j) as [->|]; reflexivity. }
  destruct (scale_colf_spec n j a3 Hj) as (S1 & S2 & S3). set (a' := scale_colf rnd n j a3) in *. cbv zeta in S1, S2.
  assert (Tjq : tr j q j = q) by (unfold tr; rewrite Nat.eqb_refl; reflexivity).
  assert (Tlt : forall i, (i < n)%nat -> (tr j q i < n)%nat) by (intros i Hi; apply tr_lt; lia).
  assert (Tlow : forall i, (i < j)%nat -> tr j q i = i) by (intros i Hi; unfold tr; destruct (Nat.eqb_spec i j), (Nat.eqb_spec i q); lia).
  assert (Tge : forall i, (j <= i)%nat -> (j <= tr j q i)%nat) by (intros i Hi; unfold tr; destruct (Nat.eqb_spec i j), (Nat.eqb_spec i q); lia).
  exists q, (fun k => a1 k j), (fun i => a2 i j). split; [exact B3|]. split; [reflexivity|].
  split; [destruct (Nat.eqb q j); simpl; ring|].
  split. { intros i Hi. destruct (Nat.eqb q j); simpl; [apply Hvv; exact Hi|]. unfold fset. destruct (Nat.eqb_spec i q); [apply Hvv; exact Hj|apply Hvv; exact Hi]. }
  split. { intros i c Hi Hc Hcj. rewrite S3 by lia. rewrite C by assumption. rewrite B2 by lia. apply A2. lia. }
  split. { intros i Hi. split; [apply A1; exact Hi|]. rewrite S3 by lia. rewrite C by lia. rewrite Tlow by exact Hi. apply B2. lia. }
  split. { intros i Hi. assert (D := B1 i Hi). rewrite (A2 i j) in D by lia. eapply dotted_ext; [|exact D]. intros k Hk. cbv beta. rewrite (A2 i k) by lia. reflexivity. }
  assert (E3 : a3 j j = a2 q j) by (rewrite C by lia; rewrite Tjq; reflexivity).
  destruct (Req_EM_T (a3 j j) 0) as [Z|Z].
  - right. rewrite E3 in Z.
    assert (Z' : forall i, (j <= i < n)%nat -> a2 i j = 0).
    { intros i Hi. specialize (B4 i Hi). rewrite Z, Rabs_R0, Rmult_0_r, (rnd_0 u Hu rnd Hr) in B4. destruct (Req_dec (a2 i j) 0) as [|N]; [assumption|].
      apply Rabs_pos_lt in N. assert (0 < rnd (lu_vv s i * Rabs (a2 i j))) by (apply (rnd_pos u Hu rnd Hr); apply Rmult_lt_0_compat; [apply Hvv; lia|exact N]). lra. }
    split; [exact Z'|]. split; [exact S1|]. intros i Hi. rewrite S2 by exact Hi. rewrite C by lia. rewrite Z' by (split; [apply Tge; lia|apply Tlt; lia]).
    rewrite Rmult_0_l. apply (rnd_0 u Hu rnd Hr).
  - left. rewrite E3 in Z, S1, S2. split; [exact Z|]. split; [exact S1|]. intros i Hi. rewrite S2 by exact Hi. rewrite C by lia. reflexivity.
Qed.

Definition LUInvF (n : nat) (A : mat) (j : nat) (s : lu) (t : nat -> R) : Prop :=
  let a := lu_a s in let P := apply_swaps (lu_indx s) j A in
  (forall k, (k < j)%nat -> (k <= lu_indx s k < n)%nat) /\
  lu_parity s = swap_sign (lu_indx s) j /\
  (forall i, (i < n)%nat -> 0 < lu_vv s i) /\
  (forall i c, (i < n)%nat -> (j <= c < n)%nat -> a i c = P i c) /\
  (forall i c, (i <= c)%nat -> (c < j)%nat -> dotted n i (P i c + (if Nat.eqb i c then t c else 0)) (a i c) (fun k => a i k * a k c)) /\
  (forall i c, (c < i < n)%nat -> (c < j)%nat -> dotted n c (P i c) (a i c * a c c) (fun k => a i k * a k c)) /\
  (forall c, (c < j)%nat -> a c c <> 0 /\ (t c = 0 \/ (t c = TINYf rnd /\ a c c = TINYf rnd /\ forall i, (c < i < n)%nat -> a i c = 0))).

Lemma crout_invf n A j s t : (j < n)%nat -> LUInvF n A j s t -> exists t', LUInvF n A (S j) (crout_colf rnd n j s) t'.
Proof.
  intros Hj (I1 & I2 & I3 & I4 & I5 & I6 & I7).
  destruct (croutf_spec n j s Hj I3) as (q & v & w & Q & X & Par & VV & O & U & W & D). cbv zeta in *.
  set (s' := crout_colf rnd n j s) in *. set (a := lu_a s) in *. set (a' := lu_a s') in *.
  assert (Tjq : tr j q j = q) by (unfold tr; rewrite Nat.eqb_refl; reflexivity).
  assert (Tlt : forall i, (i < n)%nat -> (tr j q i < n)%nat) by (intros i Hi; apply tr_lt; lia).
  assert (Tlow : forall i, (i < j)%nat -> tr j q i = i) by (intros i Hi; unfold tr; destruct (Nat.eqb_spec i j), (Nat.eqb_spec i q); lia).
  assert (Tge : forall i, (j <= i)%nat -> (j <= tr j q i)%nat) by (intros i Hi; unfold tr; destruct (Nat.eqb_spec i j), (Nat.eqb_spec i q); lia).
  assert (Xj : lu_indx s' j = q) by (rewrite X, Nat.eqb_refl; reflexivity).
  assert (Xk : forall k, (k < j)%nat -> lu_indx s' k = lu_indx s k) by (intros k Hk; rewrite X; destruct (Nat.eqb_spec k j); [lia|reflexivity]).
  assert (PE : forall i c, apply_swaps (lu_indx s') (S j) A i c = apply_swaps (lu_indx s) j A (tr j q i) c).
  { intros i c. cbn [apply_swaps]. rewrite Xj, row_swap_tr. rewrite (apply_swaps_ext _ (lu_indx s)) by exact Xk. reflexivity. }
  set (P := apply_swaps (lu_indx s) j A) in *. set (P' := apply_swaps (lu_indx s') (S j) A) in *.
  exists (fset t j (a' j j - w q)). unfold LUInvF. cbv zeta. fold a' P'.
  split. { intros k Hk. destruct (Nat.eq_dec k j) as [->|]; [lia|]. rewrite Xk by lia. apply I1. lia. }
  split. { rewrite Par, I2. unfold swap_sign. cbn [rprod]. rewrite Xj. rewrite Rmult_comm. f_equal. apply rprod_ext. intros k Hk. rewrite Xk by lia. reflexivity. }
  split; [exact VV|].
  split. { intros i c Hi Hc. rewrite O by lia. rewrite PE. apply I4; [apply Tlt; exact Hi|lia]. }
  assert (Arow : forall i k, (i < n)%nat -> (k < j)%nat -> a' i k = a (tr j q i) k) by (intros; apply O; lia).
  split.
  { intros i c Hic Hc. rewrite PE. destruct (Nat.eq_dec c j) as [->|Ne].
    - rewrite fset_eq. destruct (Nat.eq_dec i j) as [->|Nij].
      + rewrite Nat.eqb_refl, Tjq. assert (Wq := W q ltac:(lia)). rewrite (I4 q j) in Wq by lia.
        apply (dotted_ext u n j _ _ (fun k => a q k * v k)). { intros k Hk. rewrite Arow by lia. rewrite Tjq. destruct (U k Hk) as (_ & ->). reflexivity. }
        destruct D as [(D1 & D2 & D3)|(D1 & D2 & D3)].
        * rewrite D2. replace (P q j + (w q - w q)) with (P q j) by ring. apply (dotted_le u Hu j); [lia|exact Wq].
        * rewrite (D1 q) in * by lia. destruct Wq as (th & ph & T & Ph & E). exists 1, ph. split; [apply within_1; exact Hu|]. split; [intros k Hk; apply (within_le u Hu j); [lia|apply Ph; exact Hk]|]. rewrite E. ring.
      + destruct (Nat.eqb_spec i j); [lia|]. rewrite Tlow by lia. destruct (U i ltac:(lia)) as (U1 & U2). rewrite U2.
        rewrite (I4 i j) in U1 by lia. rewrite Rplus_0_r. apply (dotted_le u Hu i); [lia|].
        eapply dotted_ext; [|exact U1]. intros k Hk. cbv beta. rewrite Arow by lia. rewrite Tlow by lia. destruct (U k ltac:(lia)) as (_ & ->). reflexivity.
    - rewrite Tlow by lia. rewrite (fset_neq t c j) by exact Ne.
      rewrite (O i c) by lia. rewrite Tlow by lia. eapply dotted_ext; [|apply I5; lia]. intros k Hk. cbv beta. rewrite !O by lia. rewrite !Tlow by lia. reflexivity. }
  split.
  { intros i c Hic Hc. rewrite PE. destruct (Nat.eq_dec c j) as [->|Ne].
    - assert (Ti : (j <= tr j q i < n)%nat) by (split; [apply Tge; lia|apply Tlt; lia]).
      assert (Wi := W _ Ti). rewrite (I4 (tr j q i) j) in Wi by lia.
      assert (Wj : dotted j j (P (tr j q i) j) (w (tr j q i)) (fun k => a' i k * a' k j)).
      { eapply dotted_ext; [|exact Wi]. intros k Hk. cbv beta. rewrite Arow by lia. destruct (U k ltac:(lia)) as (_ & ->). reflexivity. }
      destruct D as [(D1 & D2 & D3)|(D1 & D2 & D3)].
      + rewrite D2, D3 by lia. destruct (rnd_w u Hu rnd Hr (1 / w q)) as (e1 & W1 & E1). destruct (rnd_w u Hu rnd Hr (w (tr j q i) * rnd (1 / w q))) as (e2 & W2 & E2).
        rewrite E2, E1. assert (P1 := within_pos u Hu _ _ W1). assert (P2 := within_pos u Hu _ _ W2).
        apply (dotted_le u Hu (j + 2)); [lia|].
        apply (dotted_scale u Hu j 2 j _ (w (tr j q i)) _ _ (/ (e1 * e2))); [| |exact Wj].
        * apply within_inv; [exact Hu|]. apply (within_mul u Hu 1 1); assumption.
        * field. repeat split; lra || exact D1.
      + rewrite D3 by lia. rewrite (D1 _ Ti) in Wj. rewrite Rmult_0_l. apply (dotted_le u Hu j); [lia|exact Wj].
    - apply (dotted_ext u n c _ _ (fun k => a (tr j q i) k * a k c)).
      { intros k Hk. rewrite !O by lia. rewrite (Tlow k) by lia. reflexivity. }
      rewrite !O by lia. rewrite (Tlow c) by lia. apply I6; [|lia]. destruct (Nat.lt_ge_cases i j); [rewrite Tlow by assumption; lia|split; [assert (Z := Tge i); lia|apply Tlt; lia]]. }
  intros c Hc. destruct (Nat.eq_dec c j) as [->|Ne].
  - rewrite fset_eq. destruct D as [(D1 & D2 & D3)|(D1 & D2 & D3)].
    + rewrite D2. split; [exact D1|left; ring].
    + rewrite D2. assert (T := TINYf_pos). split; [lra|]. right. rewrite (D1 q) by lia. split; [ring|]. split; [reflexivity|exact D3].
  - rewrite fset_neq by exact Ne. rewrite O by lia. rewrite Tlow by lia. destruct (I7 c ltac:(lia)) as (N & T). split; [exact N|].
    destruct T as [T|(T1 & T2 & T3)]; [left; exact T|right]. split; [exact T1|]. split; [exact T2|].
    intros i Hi. rewrite O by lia. apply T3. split; [|apply Tlt; lia]. destruct (Nat.lt_ge_cases i j); [rewrite Tlow by assumption; lia|assert (Z := Tge i); lia].
Qed.

Lemma LU_invf n A indx0 vv0 s : LU_decomposf rnd n A indx0 vv0 = Some s -> exists t, LUInvF n A n s t.
Proof.
  unfold LU_decomposf. destruct (lu_scale n A vv0) as [vv|] eqn:E; [|discriminate]. intros H. injection H as <-.
  assert (V := lu_scale_some _ _ _ _ E).
  assert (G : forall m, (m <= n)%nat -> exists t, LUInvF n A m (fold_up m (crout_colf rnd n) {| lu_a := A; lu_indx := indx0; lu_parity := 1; lu_vv := vv |}) t).
  { induction m as [|m IH]; intros Hm.
    - exists (fun _ => 0). cbn [fold_up]. unfold LUInvF. cbn. split; [intros; lia|]. split; [reflexivity|]. split; [exact V|]. split; [reflexivity|]. split; [intros; lia|]. split; intros; lia.
    - destruct (IH ltac:(lia)) as (t & I). cbn [fold_up]. eapply crout_invf; [lia|exact I]. }
  apply G. lia.
Qed.

(** ** substitution *)
Section Backsub.
Context (n : nat) (a : mat) (indx : nat -> nat) (b0 : nat -> R).
Hypothesis Hs : swaps_ok n indx.
Hypothesis Hp : forall i, (i < n)%nat -> a i i <> 0.

Lemma fold_ext_sub m (f g : nat -> R) v : (forall d, (d < m)%nat -> f d = g d) -> fold_up m (fun d t => rnd (t - rnd (f d))) v = fold_up m (fun d t => rnd (t - rnd (g d))) v.
Proof. intros H. induction m as [|m IH]; cbn [fold_up]; [reflexivity|]. rewrite IH by (intros; apply H; lia). rewrite (H m) by lia. reflexivity. Qed.
(** leading zero products may be skipped *)
Lemma dotted_tail m K s c v p : (s <= K)%nat -> (forall k, (k < s)%nat -> p k = 0) -> dotted m (K - s) c v (fun d => p (s + d)%nat) -> dotted m K c v p.
Proof.
  intros H Z (th & ph & T & Ph & E). exists th, (fun k => if Nat.ltb k s then 1 else ph (k - s)%nat). split; [exact T|]. split.
  - intros k Hk. destruct (Nat.ltb_spec k s); [apply within_1; exact Hu|apply Ph; lia].
  - rewrite E. f_equal. replace K with (s + (K - s))%nat at 2 by lia. rewrite rsum_add. rewrite (rsum_zero s) by (intros k Hk; rewrite Z by exact Hk; ring).
    rewrite Rplus_0_l. apply rsum_ext. intros d Hd. destruct (Nat.ltb_spec (s + d) s); [lia|]. replace (s + d - s)%nat with d by lia. reflexivity.
Qed.

Lemma forward_invf : forall m, (m <= n)%nat -> let '(b, ii) := fold_up m (forward_stepf rnd a indx) (b0, None) in
  (forall k, (m <= k < n)%nat -> b k = b0 (perm indx m k)) /\
  (forall k, (k < m)%nat -> dotted n k (b0 (perm indx m k)) (b k) (fun l => a k l * b l)) /\
  match ii with None => forall k, (k < m)%nat -> b k = 0 | Some s => (s < m)%nat /\ forall k, (k < s)%nat -> b k = 0 end.
Proof.
  induction m as [|m IH]; intros Hm; cbn [fold_up].
  - split; [intros; reflexivity|]. split; intros; lia.
  - specialize (IH ltac:(lia)). destruct (fold_up m (forward_stepf rnd a indx) (b0, None)) as [b ii]. destruct IH as (P1 & P2 & P3).
    assert (Q := Hs m ltac:(lia)). unfold forward_stepf. set (q := indx m) in *.
    assert (St : forall k, (k < m)%nat -> perm indx (S m) k = perm indx m k).
    { intros k Hk. cbn [perm]. f_equal. fold q. unfold tr. destruct (Nat.eqb_spec k m), (Nat.eqb_spec k q); lia. }
    assert (Pm : perm indx (S m) m = perm indx m q) by (cbn [perm]; fold q; unfold tr; rewrite Nat.eqb_refl; reflexivity).
    assert (Hi : forall v k, (S m <= k < n)%nat -> fset (fset b q (b m)) m v k = b0 (perm indx (S m) k)).
    { intros v k Hk. rewrite fset_neq by lia. cbn [perm]. fold q. unfold tr. destruct (Nat.eqb_spec k m); [lia|].
      destruct (Nat.eqb_spec k q) as [->|]; [rewrite fset_eq; apply P1; lia|rewrite fset_neq by assumption; apply P1; lia]. }
    assert (Lo : forall v k, (k < m)%nat -> fset (fset b q (b m)) m v k = b k) by (intros v k Hk; rewrite !fset_neq by lia; reflexivity).
    assert (Lo1 : forall v k, (k < m)%nat -> dotted n k (b0 (perm indx (S m) k)) (fset (fset b q (b m)) m v k) (fun l => a k l * fset (fset b q (b m)) m v l)).
    { intros v k Hk. rewrite Lo by exact Hk. rewrite St by exact Hk. eapply dotted_ext; [|apply P2; exact Hk]. intros l Hl. cbv beta. rewrite Lo by lia. reflexivity. }
    assert (Bq : b q = b0 (perm indx m q)) by (apply P1; lia).
    destruct ii as [s|].
    + destruct P3 as (Hs1 & Z). split; [apply Hi|]. split.
      * intros k Hk. destruct (Nat.eq_dec k m) as [->|]; [|apply Lo1; lia]. rewrite fset_eq.
        rewrite Pm, <- Bq. apply (dotted_tail n m s); [lia|intros l Hl; rewrite Lo by lia; rewrite Z by exact Hl; ring|].
        apply (dotted_le u Hu (m - s)); [lia|].
        set (g := fun d => a m (s + d)%nat * fset b q (b m) (s + d)%nat).
        apply (dotted_ext u _ _ _ _ g). { intros l Hl. unfold g. rewrite (fset_neq _ (s + l)%nat m) by lia. reflexivity. }
        exact (dot_loop u Hu rnd Hr g (b q) (m - s)).
      * split; [lia|]. intros k Hk. rewrite Lo by lia. apply Z. exact Hk.
    + split; [apply Hi|]. split.
      * intros k Hk. destruct (Nat.eq_dec k m) as [->|]; [|apply Lo1; lia]. rewrite fset_eq. rewrite Pm, <- Bq.
        exists 1, (fun _ => 1). split; [apply within_1; exact Hu|]. split; [intros; apply within_1; exact Hu|]. rewrite rsum_zero; [ring|].
        intros l Hl. rewrite Lo by exact Hl. rewrite P3 by exact Hl. ring.
      * destruct (Req_EM_T (b q) 0) as [E|E].
        -- intros k Hk. destruct (Nat.eq_dec k m) as [->|]; [rewrite fset_eq; exact E|]. rewrite Lo by lia. apply P3. lia.
        -- split; [lia|]. intros k Hk. rewrite Lo by lia. apply P3. exact Hk.
Qed.

Lemma backward_invf y : forall d, (d <= n)%nat -> let x := fold_up d (backward_stepf rnd n a) y in
  (forall k, (k < n - d)%nat -> x k = y k) /\
  (forall k, (n - d <= k < n)%nat -> dotted n (n - (k + 1)) (y k) (a k k * x k) (fun e => a k (k + 1 + e)%nat * x (k + 1 + e)%nat)).
Proof.
  induction d as [|d IH]; intros Hd; cbn [fold_up]; [split; intros; [reflexivity|lia]|].
  destruct (IH ltac:(lia)) as (P1 & P2). set (x := fold_up d (backward_stepf rnd n a) y) in *. cbv zeta. unfold backward_stepf. set (i := (n - 1 - d)%nat).
  set (g := fun e => a i (i + 1 + e)%nat * x (i + 1 + e)%nat).
  assert (Ds := dot_loop u Hu rnd Hr g (x i) (n - (i + 1))). change (fold_up (n - (i + 1)) (fun e t => rnd (t - rnd (a i (i + 1 + e)%nat * x (i + 1 + e)%nat))) (x i)) with (fold_up (n - (i + 1)) (fun k s => rnd (s - rnd (g k))) (x i)).
  set (sm := fold_up (n - (i + 1)) _ (x i)) in *. destruct (rnd_w u Hu rnd Hr (sm / a i i)) as (e & We & Ee). rewrite Ee.
  assert (Ni : a i i <> 0) by (apply Hp; unfold i; lia). assert (Pe := within_pos u Hu _ _ We).
  assert (Ev : dotted n (n - (i + 1)) (x i) (a i i * (sm / a i i * e)) g).
  { apply (dotted_le u Hu (n - (i + 1) + 1)); [unfold i; lia|]. apply (dotted_scale u Hu _ 1 _ _ sm _ _ (/ e)); [apply within_inv; assumption| |exact Ds]. field. split; [lra|exact Ni]. }
  split.
  - intros k Hk. rewrite fset_neq by (unfold i; lia). apply P1. lia.
  - intros k Hk. destruct (Nat.eq_dec k i) as [->|Ne].
    + rewrite fset_eq. rewrite <- (P1 i) by (unfold i; lia). eapply dotted_ext; [|exact Ev]. intros l Hl. unfold g. rewrite fset_neq by (unfold i; lia). reflexivity.
    + rewrite fset_neq by exact Ne. eapply dotted_ext; [|apply P2; unfold i in Ne; lia]. intros l Hl. cbv beta. rewrite fset_neq by (unfold i in *; lia). reflexivity.
Qed.
End Backsub.
End F.
