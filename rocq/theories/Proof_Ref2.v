(** Surface and inside node lists (C38) and patch numbering (C37) of the reference element. *)
From Coq Require Import List Arith ZArith Lia Bool Sorted Reals.
Import ListNotations.
Require Import Verif.Base Verif.NatSum Verif.Model_Ref Verif.Spec_Ref Verif.Proof_Ref.

(** ---- counting ---- *)
Definition b2n (b : bool) : nat := if b then 1 else 0.
Lemma nsum_add_idx n m f : nsum (n + m) f = nsum n f + nsum m (fun i => f (n + i)).
Proof.
  induction m as [|m IH]; simpl; [rewrite Nat.add_0_r; lia|].
  rewrite Nat.add_succ_r. simpl. rewrite IH. lia.
Qed.
Lemma nsum_mul n m f : nsum (n * m) f = nsum n (fun q => nsum m (fun r => f (q * m + r))).
Proof.
  induction n as [|n IH]; [reflexivity|]. replace (S n * m) with (n * m + m) by lia.
  rewrite nsum_add_idx, IH. simpl. reflexivity.
Qed.
Lemma nsum_scal n a f : nsum n (fun i => a * f i) = a * nsum n f.
Proof. induction n as [|n IH]; simpl; lia. Qed.
Lemma nsum_scal_r n a f : nsum n (fun i => f i * a) = nsum n f * a.
Proof. induction n as [|n IH]; simpl; lia. Qed.
Lemma nsum_const n a : nsum n (fun _ => a) = n * a.
Proof. induction n as [|n IH]; simpl; lia. Qed.
Lemma poss_count n p : length (poss n p) = nsum n (fun i => b2n (p i)).
Proof. induction n as [|n IH]; [reflexivity|]. rewrite poss_S, app_length, IH. simpl. destruct (p n); reflexivity. Qed.
Lemma poss_sorted n p : StronglySorted lt (poss n p).
Proof.
  induction n as [|n IH]; [constructor|]. rewrite poss_S.
  assert (G : forall l, StronglySorted lt l -> (forall x, In x l -> x < n) -> StronglySorted lt (l ++ [n])).
  { induction l as [|a l IHl]; intros Hs Hb; simpl; [repeat constructor|].
    inversion Hs; subst. constructor; [apply IHl; [assumption|intros; apply Hb; right; assumption]|].
    apply Forall_app. split; [assumption|]. constructor; [apply Hb; left; reflexivity|constructor]. }
  destruct (p n); [apply G; [exact IH|]|rewrite app_nil_r; exact IH].
  intros x Hx. apply poss_In in Hx. lia.
Qed.
(** sum over the cells of a grid of a product of functions of the three coordinates *)
Lemma nsum_grid n f g h :
  nsum (n * n * n) (fun q => f (q mod n) * g (q / n mod n) * h (q / n / n)) = nsum n f * nsum n g * nsum n h.
Proof.
  rewrite nsum_mul.
  rewrite (nsum_ext _ _ (fun Q => nsum n f * (g (Q mod n) * h (Q / n)))).
  2:{ intros Q HQ. rewrite <- nsum_scal_r. apply nsum_ext. intros r Hr.
      destruct (digit_lo n Q r Hr) as (-> & ->). lia. }
  rewrite nsum_scal, nsum_mul.
  rewrite (nsum_ext n (fun q => nsum n _) (fun K => nsum n g * h K)).
  2:{ intros Q HQ. rewrite <- nsum_scal_r. apply nsum_ext. intros r Hr.
      destruct (digit_lo n Q r Hr) as (-> & ->). lia. }
  rewrite nsum_scal. lia.
Qed.

(** ---- inside / surface lists ---- *)
Definition strict (n i : nat) : bool := (0 <? i) && (i <? n - 1).
Definition inside (n q : nat) : bool := strict n (q mod n) && strict n (q / n mod n) && strict n (q / n / n).

Lemma count_strict n : 2 <= n -> nsum n (fun i => b2n (strict n i)) = n - 2.
Proof.
  intros H. replace n with (1 + (n - 2) + 1) at 1 by lia. rewrite !nsum_add_idx.
  rewrite (nsum_zero 1), (nsum_zero 1 (fun i => b2n (strict n (1 + (n - 2) + i)))).
  - rewrite (nsum_ext (n - 2) _ (fun _ => 1)).
    + rewrite nsum_const. lia.
    + intros i Hi. unfold strict. destruct (Nat.ltb_spec 0 (1 + i)); [|lia].
      destruct (Nat.ltb_spec (1 + i) (n - 1)); [reflexivity|lia].
  - intros i Hi. unfold strict. destruct (Nat.ltb_spec (1 + (n - 2) + i) (n - 1)); [lia|].
    rewrite andb_false_r. reflexivity.
  - intros i Hi. replace i with 0 by lia. reflexivity.
Qed.
Lemma count_inside n : 2 <= n -> length (poss (n * n * n) (inside n)) = (n - 2) * (n - 2) * (n - 2).
Proof.
  intros H. rewrite poss_count.
  rewrite (nsum_ext _ _ (fun q => b2n (strict n (q mod n)) * b2n (strict n (q / n mod n)) * b2n (strict n (q / n / n)))).
  - rewrite (nsum_grid n (fun i => b2n (strict n i)) (fun i => b2n (strict n i)) (fun i => b2n (strict n i))).
    rewrite count_strict by exact H. reflexivity.
  - intros q _. unfold inside. destruct (strict n (q mod n)), (strict n (q / n mod n)), (strict n (q / n / n)); reflexivity.
Qed.
Lemma poss_compl n p : length (poss n p) + length (poss n (fun i => negb (p i))) = n.
Proof. induction n as [|n IH]; [reflexivity|]. rewrite !poss_S, !app_length. destruct (p n); simpl; lia. Qed.

(** pushing at the end of a filled prefix *)
Lemma upd_app_none {A} (l : list A) m (v : A) : 1 <= m ->
  upd (map Some l ++ repeat None m) (length l) (Some v) = map Some (l ++ [v]) ++ repeat None (m - 1).
Proof.
  intros H. induction l as [|a l IH]; simpl.
  - destruct m as [|m]; [lia|]. simpl. rewrite Nat.sub_0_r. reflexivity.
  - f_equal. exact IH.
Qed.

Lemma node_lists_ok n : 2 <= n ->
  build_node_lists n = Ok (map Some (poss (n * n * n) (inside n)),
                           map Some (poss (n * n * n) (fun q => negb (inside n q))),
                           (n - 2) * (n - 2) * (n - 2), n * n * n - (n - 2) * (n - 2) * (n - 2)).
Proof.
  intros Hn. unfold build_node_lists. cbv zeta.
  rewrite (loop3 n n n (fun k j i '(ins, sur, ci, cs) =>
    if (0 <? i) && (i <? n - 1) && (0 <? j) && (j <? n - 1) && (0 <? k) && (k <? n - 1) then
      do ins' <- set ins ci (Some (rid n i j k)); Ok (ins', sur, ci + 1, cs)
    else
      do sur' <- set sur cs (Some (rid n i j k)); Ok (ins, sur', ci, cs + 1))).
  set (NI := (n - 2) * (n - 2) * (n - 2)).
  assert (TI : length (poss (n * n * n) (inside n)) = NI) by (apply count_inside; exact Hn).
  assert (TS : length (poss (n * n * n) (fun q => negb (inside n q))) = n * n * n - NI).
  { pose proof (poss_compl (n * n * n) (inside n)). lia. }
  edestruct (loop_inv (fun q '(ins, sur, ci, cs) =>
     ins = map Some (poss q (inside n)) ++ repeat None (NI - length (poss q (inside n))) /\
     sur = map Some (poss q (fun q => negb (inside n q))) ++ repeat None (n * n * n - NI - length (poss q (fun q => negb (inside n q)))) /\
     ci = length (poss q (inside n)) /\ cs = length (poss q (fun q => negb (inside n q)))) (n * n * n))
   as ((((ins & sur) & ci) & cs) & E & -> & -> & -> & ->).
  3: { rewrite E. rewrite TI, TS, !Nat.sub_diag. simpl. rewrite !app_nil_r. reflexivity. }
  - cbv beta iota. simpl. rewrite !Nat.sub_0_r. auto.
  - intros q (((ins & sur) & ci) & cs) Hq (-> & -> & -> & ->).
    destruct (pos3 n q Hq) as (P1 & P2 & P3 & P4). rewrite <- P4.
    replace ((0 <? q mod n) && (q mod n <? n - 1) && (0 <? q / n mod n) && (q / n mod n <? n - 1) &&
       (0 <? q / n / n) && (q / n / n <? n - 1)) with (inside n q)
      by (unfold inside, strict; rewrite !andb_assoc; reflexivity).
    cbv beta iota. rewrite !poss_S.
    pose proof (poss_len_mono (S q) (n * n * n) (inside n) Hq) as LI.
    pose proof (poss_len_mono (S q) (n * n * n) (fun q => negb (inside n q)) Hq) as LS.
    rewrite poss_S, app_length, ?TI in LI. rewrite poss_S, app_length, ?TS in LS.
    destruct (inside n q) eqn:Ei; simpl negb in *; cbv iota in *; simpl length in LI, LS.
    + rewrite set_ok by (rewrite app_length, map_length, repeat_length; lia). cbn [bind].
      eexists. split; [reflexivity|]. cbv beta iota. rewrite upd_app_none by lia. rewrite !app_nil_r, app_length. simpl length.
      repeat split; try lia; f_equal; f_equal; lia.
    + rewrite set_ok by (rewrite app_length, map_length, repeat_length; lia). cbn [bind].
      eexists. split; [reflexivity|]. cbv beta iota. rewrite upd_app_none by lia. rewrite !app_nil_r, app_length. simpl length.
      repeat split; try lia; f_equal; f_equal; lia.
Qed.

Lemma strict_spec n i : strict n i = true <-> 0 < i /\ i < n - 1.
Proof. unfold strict. rewrite andb_true_iff, !Nat.ltb_lt. reflexivity. Qed.

Lemma node_lists_spec n : 2 <= n -> exists li ls,
  build_node_lists n = Ok (map Some li, map Some ls, length li, length ls) /\
  length li = (n - 2) * (n - 2) * (n - 2) /\ length ls = n * n * n - (n - 2) * (n - 2) * (n - 2) /\
  increasing li /\ increasing ls /\
  (forall r, In r li <-> exists i j k, 0 < i < n - 1 /\ 0 < j < n - 1 /\ 0 < k < n - 1 /\ r = rid n i j k) /\
  (forall r, In r ls <-> r < n * n * n /\ ~ In r li).
Proof.
  intros Hn. exists (poss (n * n * n) (inside n)), (poss (n * n * n) (fun q => negb (inside n q))).
  assert (TI := count_inside n Hn). pose proof (poss_compl (n * n * n) (inside n)) as TS.
  split; [|split; [|split; [|split; [|split; [|split]]]]].
  - rewrite node_lists_ok by exact Hn. repeat f_equal; lia.
  - exact TI.
  - lia.
  - apply poss_sorted.
  - apply poss_sorted.
  - intros r. rewrite poss_In. split.
    + intros (Hr & Hi). destruct (pos3 n r Hr) as (P1 & P2 & P3 & P4). unfold inside in Hi.
      rewrite !andb_true_iff, !strict_spec in Hi. exists (r mod n), (r / n mod n), (r / n / n). intuition lia.
    + intros (i & j & k & Hi & Hj & Hk & ->). split; [apply rid_lt; lia|].
      unfold inside. destruct (rid_dec n i j k) as (-> & -> & ->); [lia..|]. rewrite !andb_true_iff, !strict_spec. lia.
  - intros r. rewrite !poss_In. destruct (inside n r); simpl; intuition congruence.
Qed.
