(** Proofs about build_cell_cell_connectivity and build_element_connectivity. *)
From Coq Require Import List Arith Lia Sorted Bool.
Import ListNotations.
Require Import Verif.Base Verif.NatSum Verif.Model_Conn Verif.Spec_Conn Verif.Proof_Conn.

(** ---- generic: loops that walk over a list ---- *)
Lemma iter_app {A S} (l1 l2 : list A) (b : A -> S -> res S) s :
  iter (l1 ++ l2) b s = bind (iter l1 b s) (fun s' => iter l2 b s').
Proof.
  revert s. induction l1 as [|a t IH]; intros s; simpl; [reflexivity|].
  destruct (b a s) as [s'|e]; simpl; [apply IH|reflexivity].
Qed.

Lemma loop_from_iter {S} (L : list nat) (acc : nat -> res nat) (b : nat -> S -> res S) lo s :
  (forall i, i < length L -> acc (lo + i) = Ok (nth i L 0)) ->
  loop_from lo (length L) (fun i st => do nb <- acc i; b nb st) s = iter L b s.
Proof.
  revert lo s. induction L as [|a t IH]; intros lo s H; simpl; [reflexivity|].
  rewrite <- (Nat.add_0_r lo) at 1. rewrite (H 0) by (simpl; lia). cbn [bind nth].
  destruct (b a s) as [s'|e]; simpl; [|reflexivity].
  apply IH. intros i Hi. replace (Datatypes.S lo + i) with (lo + Datatypes.S i) by lia.
  rewrite (H (Datatypes.S i)) by (simpl; lia). reflexivity.
Qed.

Lemma loop_concat {S} (f : nat -> list nat) (b : nat -> S -> res S) (body : nat -> S -> res S) K s :
  (forall l s, l < K -> body l s = iter (f l) b s) ->
  loop K body s = iter (concat (map f (seq 0 K))) b s.
Proof.
  intros H. unfold loop.
  assert (G : forall k lo s, lo + k <= K -> loop_from lo k body s = iter (concat (map f (seq lo k))) b s).
  { induction k as [|k IH]; intros lo s0 Hk; simpl; [reflexivity|].
    rewrite iter_app, H by lia. destruct (iter (f lo) b s0) as [s'|e]; simpl; [apply IH; lia|reflexivity]. }
  apply G. lia.
Qed.

Lemma upd_same {A} (l : list A) i d : i < length l -> upd l i (nth i l d) = l.
Proof.
  revert i. induction l as [|h t IH]; intros [|i] H; simpl in *; try lia; [reflexivity|].
  f_equal. apply IH. lia.
Qed.
Lemma upd_upd {A} (l : list A) i v w : upd (upd l i v) i w = upd l i w.
Proof. revert i. induction l as [|h t IH]; intros [|i]; simpl; try reflexivity. f_equal. apply IH. Qed.

(** ---- candidate lists ---- *)
Definition cellsOf (K nc : nat) (nodes : list nat) (n : nat) : list nat :=
  map (fun q => q / K) (inc nodes n (nc * K)).
Definition cand (K nc : nat) (nodes : list nat) (c : nat) : list nat :=
  concat (map (fun l => cellsOf K nc nodes (nth (c * K + l) nodes 0)) (seq 0 K)).

(** a node_cells structure that answers as the specification says *)
Definition nc_good (K nc nn : nat) (nodes : list nat) (m : node_cells) : Prop :=
  forall n, n < nn -> num_cells_in_node m n = Ok (length (cellsOf K nc nodes n)) /\
    forall j, j < length (cellsOf K nc nodes n) -> cells_in_node m n j = Ok (nth j (cellsOf K nc nodes n) 0).

Lemma node_cell_good K nc nn nodes m : mesh_ok K nc nn nodes -> build_node_cell K nc nn nodes = Ok m ->
  nc_good K nc nn nodes m.
Proof.
  intros M E n Hn. destruct (node_cell_ok K nc nn nodes M) as (m' & E' & _ & _ & H).
  rewrite E in E'. inversion E'; subst m'. destruct (H n Hn) as (H1 & H2). unfold cellsOf.
  rewrite map_length. split; [exact H1|]. intros j Hj. rewrite map_nth0 by exact Hj. apply H2. exact Hj.
Qed.

Lemma walk {S} K nc nn nodes m c (b : nat -> S -> res S) s :
  mesh_ok K nc nn nodes -> nc_good K nc nn nodes m -> c < nc ->
  loop K (fun l st => do n <- get nodes (c * K + l); do cn <- num_cells_in_node m n;
     loop cn (fun i st => do nb <- cells_in_node m n i; b nb st) st) s = iter (cand K nc nodes c) b s.
Proof.
  intros M G Hc. apply loop_concat. intros l s0 Hl.
  assert (Hp : c * K + l < nc * K).
  { assert (Datatypes.S c * K <= nc * K) by (apply Nat.mul_le_mono_r; lia). simpl in *. lia. }
  rewrite (get_ok nodes _ 0) by (rewrite (proj1 M); exact Hp). cbn [bind].
  destruct (G _ (nodes_lt _ _ _ _ _ M Hp)) as (G1 & G2). rewrite G1. cbn [bind].
  unfold loop. apply (loop_from_iter _ (fun i => cells_in_node m (nth (c * K + l) nodes 0) i) b 0 s0 G2).
Qed.

Lemma In_cellsOf K nc nn nodes n d : mesh_ok K nc nn nodes ->
  (In d (cellsOf K nc nodes n) <-> d < nc /\ exists l, has_node K nodes d l n).
Proof.
  intros M. unfold cellsOf. rewrite in_map_iff. split.
  - intros (q & <- & Hq). apply poss_In in Hq. destruct Hq as (Hq & Eq). apply Nat.eqb_eq in Eq.
    destruct (divmod_pos q K nc Hq) as (B1 & B2 & B3). split; [exact B1|]. exists (q mod K).
    split; [exact B2|]. rewrite B3, (nth_error_nth' nodes 0) by (rewrite (proj1 M); exact Hq). rewrite Eq. reflexivity.
  - intros (Hd & l & Hl & E). exists (d * K + l). split.
    + rewrite Nat.add_comm, Nat.div_add, Nat.div_small by lia. reflexivity.
    + apply poss_In. split.
      * assert (Datatypes.S d * K <= nc * K) by (apply Nat.mul_le_mono_r; lia). simpl in *. lia.
      * apply Nat.eqb_eq. apply nth_error_nth. exact E.
Qed.

Lemma In_cand K nc nn nodes c d : mesh_ok K nc nn nodes -> c < nc ->
  (In d (cand K nc nodes c) <-> d < nc /\ share_node K nodes c d).
Proof.
  intros M Hc. unfold cand. rewrite in_concat. split.
  - intros (L & HL & Hd). apply in_map_iff in HL. destruct HL as (l & <- & Hl). apply in_seq in Hl.
    apply (In_cellsOf K nc nn nodes _ d M) in Hd. destruct Hd as (Hd & l' & H'). split; [exact Hd|].
    exists l, l', (nth (c * K + l) nodes 0). split; [|exact H']. split; [lia|].
    apply nth_error_nth'. rewrite (proj1 M).
    assert (Datatypes.S c * K <= nc * K) by (apply Nat.mul_le_mono_r; lia). simpl in *. lia.
  - intros (Hd & l & l' & n & (Hl & E) & H'). exists (cellsOf K nc nodes (nth (c * K + l) nodes 0)). split.
    + apply in_map_iff. exists l. split; [reflexivity|]. apply in_seq. lia.
    + apply (In_cellsOf K nc nn nodes _ d M). split; [exact Hd|]. exists l'.
      rewrite (nth_error_nth _ _ 0 E). exact H'.
Qed.

(** ---- first-seen de-duplication ---- *)
Definition memb (x : nat) (l : list nat) : bool := existsb (Nat.eqb x) l.
Definition dstep (c : nat) (acc : list nat) (nb : nat) : list nat :=
  if negb (nb =? c) && negb (memb nb acc) then acc ++ [nb] else acc.
Definition dfold (c : nat) (L acc : list nat) : list nat := fold_left (dstep c) L acc.
Definition others (c : nat) (L : list nat) : nat := length (filter (fun nb => negb (nb =? c)) L).

Lemma memb_In x l : memb x l = true <-> In x l.
Proof.
  unfold memb. rewrite existsb_exists. split.
  - intros (y & Hy & E). apply Nat.eqb_eq in E. subst. exact Hy.
  - intros H. exists x. split; [exact H|apply Nat.eqb_refl].
Qed.

Lemma dfold_spec c L acc : NoDup acc -> ~ In c acc ->
  NoDup (dfold c L acc) /\ (forall d, In d (dfold c L acc) <-> In d acc \/ (In d L /\ d <> c)) /\
  length (dfold c L acc) <= length acc + others c L /\ length acc <= length (dfold c L acc).
Proof.
  revert acc. induction L as [|x L IH]; intros acc Nd Nc.
  - cbn [dfold fold_left]. split; [exact Nd|]. split; [simpl; tauto|]. simpl; lia.
  - unfold dfold. cbn [fold_left]. fold (dfold c L (dstep c acc x)). unfold dstep.
    destruct (Nat.eqb_spec x c) as [->|Q]; cbn [negb andb].
    + destruct (IH acc Nd Nc) as (A & B & C1 & C2). split; [exact A|]. split.
      * intros d. rewrite B. simpl. intuition congruence.
      * unfold others in *. cbn [filter]. rewrite Nat.eqb_refl. simpl. lia.
    + destruct (memb x acc) eqn:Em; cbn [negb].
      * apply memb_In in Em. destruct (IH acc Nd Nc) as (A & B & C1 & C2). split; [exact A|]. split.
        -- intros d. rewrite B. simpl. split; [tauto|]. intros [H|[[<-|H] H']]; tauto.
        -- unfold others in *. cbn [filter]. destruct (Nat.eqb_spec x c); [contradiction|]. simpl. lia.
      * assert (Ex : ~ In x acc) by (intros H; apply memb_In in H; congruence).
        destruct (IH (acc ++ [x])) as (A & B & C1 & C2).
        -- apply NoDup_rev in Nd. rewrite <- (rev_involutive (acc ++ [x])). apply NoDup_rev.
           rewrite rev_app_distr. simpl. constructor; [rewrite <- in_rev; exact Ex|exact Nd].
        -- rewrite in_app_iff. simpl. intuition.
        -- split; [exact A|]. split.
           ++ intros d. rewrite B, in_app_iff. simpl. intuition congruence.
           ++ unfold others in *. cbn [filter]. destruct (Nat.eqb_spec x c); [contradiction|].
              rewrite app_length in *. simpl in *. lia.
Qed.

(** ---- counting pairs ---- *)
Definition count_body (c : nat) (nb : nat) (st : list nat * nat) : res (list nat * nat) :=
  let '(cnt, total) := st in
  if Nat.eqb nb c then Ok (cnt, total)
  else do v <- get cnt c; do cnt' <- set cnt c (v + 1); Ok (cnt', total + 1).

Lemma count_iter c L cnt total : c < length cnt ->
  iter L (count_body c) (cnt, total) = Ok (upd cnt c (nth c cnt 0 + others c L), total + others c L).
Proof.
  revert cnt total. induction L as [|x L IH]; intros cnt total Hc; cbn [iter].
  - unfold others. simpl. rewrite !Nat.add_0_r, upd_same by exact Hc. reflexivity.
  - unfold count_body at 1, others. cbn [filter]. destruct (Nat.eqb_spec x c) as [E|E]; cbn [negb].
    + cbn [bind]. apply IH. exact Hc.
    + rewrite (get_ok cnt c 0) by exact Hc. cbn [bind]. rewrite set_ok by exact Hc. cbn [bind].
      rewrite IH by (rewrite upd_length; exact Hc). rewrite nth_upd_eq by exact Hc. rewrite upd_upd.
      cbn [length]. unfold others. f_equal. f_equal; [f_equal; lia|lia].
Qed.

Lemma count_pairs_ok K nc nn nodes m : mesh_ok K nc nn nodes -> nc_good K nc nn nodes m ->
  exists cnt, count_pairs K nc nodes m = Ok (cnt, nsum nc (fun c => others c (cand K nc nodes c))) /\
    length cnt = nc /\ forall c, c < nc -> nth c cnt 0 = others c (cand K nc nodes c).
Proof.
  intros M G. unfold count_pairs.
  edestruct (loop_inv (fun k st => length (fst st) = nc /\
     (forall c, c < k -> nth c (fst st) 0 = others c (cand K nc nodes c)) /\
     (forall c, k <= c -> nth c (fst st) 0 = 0) /\
     snd st = nsum k (fun c => others c (cand K nc nodes c))) nc) as ((cnt & total) & E & H1 & H2 & H3 & H4).
  3: { cbn [fst snd] in *. subst total. exists cnt. split; [exact E|]. split; [exact H1|exact H2]. }
  - cbn [fst snd]. rewrite repeat_length. split; [reflexivity|]. split; [intros; lia|]. split; [|reflexivity].
    intros c _. apply nth_repeat.
  - intros c (cnt & total) Hc (H1 & H2 & H3 & H4). cbn [fst snd] in *.
    assert (W := walk K nc nn nodes m c (count_body c) (cnt, total) M G Hc).
    unfold count_body in W at 1. rewrite W. clear W.
    rewrite count_iter by lia. eexists. split; [reflexivity|]. cbn [fst snd].
    rewrite upd_length. split; [exact H1|]. split; [|split].
    + intros c' Hc'. rewrite nth_upd by lia. destruct (Nat.eqb_spec c' c) as [->|Q].
      * rewrite H3 by lia. reflexivity.
      * apply H2. lia.
    + intros c' Hc'. rewrite nth_upd_neq by lia. apply H3. lia.
    + cbn [nsum]. rewrite H4. reflexivity.
Qed.

(** ---- filling the temporary list ---- *)
Definition holds (temp : list (option nat)) (s : nat) (acc : list nat) : Prop :=
  s + length acc <= length temp /\ forall i, i < length acc -> nth (s + i) temp None = Some (nth i acc 0).

Lemma save_flag_ok c nb s temp acc : holds temp s acc ->
  save_flag c nb s (s + length acc) temp = Ok (negb (nb =? c) && negb (memb nb acc)).
Proof.
  intros (Hl & H). unfold save_flag. replace (s + length acc - s) with (length acc) by lia.
  assert (G : forall (L : list nat) lo b, lo + length L <= length temp ->
     (forall i, i < length L -> nth (lo + i) temp None = Some (nth i L 0)) ->
     loop_from lo (length L) (fun i save => do t <- getu temp i; Ok (if Nat.eqb nb t then false else save)) b
     = Ok (b && negb (memb nb L))).
  { induction L as [|a L IH]; intros lo b Hb HL; cbn [length loop_from].
    - simpl. rewrite andb_true_r. reflexivity.
    - unfold getu at 1. simpl in Hb. rewrite (nth_error_nth' temp None) by lia.
      assert (Q := HL 0 ltac:(simpl; lia)). rewrite Nat.add_0_r in Q. rewrite Q. cbn [bind nth].
      rewrite IH.
      + unfold memb. cbn [existsb]. destruct (nb =? a); cbn [orb negb andb]; [rewrite andb_false_r|]; reflexivity.
      + lia.
      + intros i Hi. replace (Datatypes.S lo + i) with (lo + Datatypes.S i) by lia.
        rewrite HL by (simpl; lia). reflexivity. }
  apply G; assumption.
Qed.

Definition fill_body (starts : list nat) (c nb : nat) (st : list (option nat) * list nat * nat)
  : res (list (option nat) * list nat * nat) :=
  let '(temp, saved, actual) := st in
  do s <- get starts c;
  do k <- get saved c;
  do save <- save_flag c nb s (s + k) temp;
  if save then
    do temp' <- set temp (s + k) (Some nb);
    do saved' <- set saved c (k + 1);
    Ok (temp', saved', actual + 1)
  else Ok (temp, saved, actual).

Lemma fill_iter starts c s L : forall temp saved actual acc,
  get starts c = Ok s -> c < length saved -> nth c saved 0 = length acc -> holds temp s acc ->
  s + length acc + others c L <= length temp ->
  exists temp', iter L (fill_body starts c) (temp, saved, actual) =
    Ok (temp', upd saved c (length (dfold c L acc)), actual + (length (dfold c L acc) - length acc)) /\
    holds temp' s (dfold c L acc) /\ length temp' = length temp /\
    (forall i, i < s \/ s + length acc + others c L <= i -> nth i temp' None = nth i temp None).
Proof.
  induction L as [|x L IH]; intros temp saved actual acc Es Hc Hs Hh Hr; cbn [iter].
  - exists temp. cbn [dfold fold_left]. rewrite <- Hs, upd_same, Nat.sub_diag, Nat.add_0_r by exact Hc. auto.
  - unfold fill_body at 1. rewrite Es. cbn [bind]. rewrite (get_ok saved c 0) by exact Hc. cbn [bind].
    rewrite Hs, save_flag_ok by exact Hh. cbn [bind].
    unfold dfold. cbn [fold_left]. unfold dstep at 2 4 6. unfold others in Hr. cbn [filter] in Hr.
    destruct (negb (x =? c) && negb (memb x acc)) eqn:Eb.
    + apply andb_true_iff in Eb. destruct Eb as (Eb1 & Eb2). rewrite Eb1 in Hr. cbn [length] in Hr.
      fold (others c L) in Hr.
      rewrite set_ok by lia. cbn [bind]. rewrite set_ok by exact Hc. cbn [bind].
      destruct (IH (upd temp (s + length acc) (Some x)) (upd saved c (length acc + 1)) (actual + 1) (acc ++ [x]))
        as (temp' & E & H1 & H2 & H3).
      * exact Es.
      * rewrite upd_length. exact Hc.
      * rewrite nth_upd_eq, app_length by exact Hc. reflexivity.
      * split; [rewrite upd_length, app_length; simpl; lia|]. intros i Hi. rewrite app_length in Hi. simpl in Hi.
        rewrite nth_upd by lia. destruct (Nat.eqb_spec (s + i) (s + length acc)) as [Q|Q].
        -- assert (i = length acc) by lia. subst i. rewrite app_nth2, Nat.sub_diag by lia. reflexivity.
        -- rewrite app_nth1 by lia. apply (proj2 Hh). lia.
      * rewrite upd_length, app_length. simpl. lia.
      * exists temp'. assert (Hlen : length (acc ++ [x]) <= length (dfold c L (acc ++ [x]))).
        { clear. generalize (acc ++ [x]). induction L as [|y L IH]; intros a; [reflexivity|].
          unfold dfold. cbn [fold_left]. fold (dfold c L (dstep c a y)). specialize (IH (dstep c a y)).
          assert (length a <= length (dstep c a y)). { unfold dstep. destruct (_ && _); [rewrite app_length; lia|lia]. } lia. }
        fold (dfold c L (acc ++ [x])).
        rewrite E, upd_upd. split; [f_equal; f_equal; rewrite app_length in *; simpl in *; lia|].
        split; [exact H1|]. rewrite H2, upd_length. split; [reflexivity|].
        intros i Hi. unfold others in Hi. cbn [filter] in Hi. rewrite Eb1 in Hi. cbn [length] in Hi. fold (others c L) in Hi.
        rewrite H3 by (rewrite app_length; simpl; lia). rewrite nth_upd_neq by lia. reflexivity.
    + cbn [bind].
      destruct (IH temp saved actual acc Es Hc Hs Hh) as (temp' & E & H1 & H2 & H3).
      { destruct (negb (x =? c)); cbn [length] in Hr; fold (others c L) in Hr; lia. }
      exists temp'. fold (dfold c L acc). split; [exact E|]. split; [exact H1|]. split; [exact H2|].
      intros i Hi. apply H3. unfold others in Hi. cbn [filter] in Hi.
      destruct (negb (x =? c)); cbn [length] in Hi; fold (others c L) in Hi; lia.
Qed.

Section Fill.
  Variables (K nc nn : nat) (nodes : list nat) (m : node_cells).
  Hypotheses (M : mesh_ok K nc nn nodes) (G : nc_good K nc nn nodes m).
  Definition oth (c : nat) := others c (cand K nc nodes c).
  Definition nbrs (c : nat) : list nat := dfold c (cand K nc nodes c) [].

  Lemma nbrs_len c : length (nbrs c) <= oth c.
  Proof. destruct (dfold_spec c (cand K nc nodes c) [] (NoDup_nil _) (fun H => H)) as (_ & _ & H & _). exact H. Qed.

  Lemma start_room c : c < nc -> nsum c oth + oth c <= nsum nc oth.
  Proof. intros H. assert (Q := nsum_mono (S c) nc oth H). cbn [nsum] in Q. exact Q. Qed.

  Lemma fill_neighbors_ok starts ssize : length starts = nc + 1 -> nc <= ssize ->
    (forall c, c <= nc -> nth c starts 0 = nsum c oth) ->
    exists temp saved, fill_neighbors K nc ssize nodes m starts (nsum nc oth) =
      Ok (temp, saved, nsum nc (fun c => length (nbrs c))) /\
      length temp = nsum nc oth /\ length saved = ssize /\
      (forall c, c < nc -> nth c saved 0 = length (nbrs c)) /\
      (forall c, c < nc -> holds temp (nsum c oth) (nbrs c)).
  Proof.
    intros Ls Hss S. unfold fill_neighbors.
    edestruct (loop_inv (fun k st => let '(temp, saved, actual) := st in
        length temp = nsum nc oth /\ length saved = ssize /\
        (forall c, c < k -> nth c saved 0 = length (nbrs c)) /\ (forall c, k <= c -> nth c saved 0 = 0) /\
        (forall c, c < k -> holds temp (nsum c oth) (nbrs c)) /\
        actual = nsum k (fun c => length (nbrs c))) nc)
      as (((temp & saved) & actual) & E & H1 & H2 & H3 & H4 & H5 & H6).
    3: { exists temp, saved. subst actual. split; [exact E|]. split; [exact H1|]. split; [exact H2|].
         split; [exact H3|exact H5]. }
    - unfold alloc. rewrite !repeat_length. split; [reflexivity|]. split; [reflexivity|].
      split; [intros; lia|]. split; [intros; apply nth_repeat|]. split; [intros; lia|reflexivity].
    - intros c ((temp & saved) & actual) Hc (H1 & H2 & H3 & H4 & H5 & H6).
      assert (W := walk K nc nn nodes m c (fill_body starts c) (temp, saved, actual) M G Hc).
      unfold fill_body in W at 1. rewrite W. clear W.
      assert (Es : get starts c = Ok (nsum c oth)) by (rewrite (get_ok starts c 0), S by lia; reflexivity).
      assert (R := start_room c Hc).
      destruct (fill_iter starts c (nsum c oth) (cand K nc nodes c) temp saved actual [] Es)
        as (temp' & E & F1 & F2 & F3).
      + lia.
      + simpl. apply H4. lia.
      + split; [simpl; lia|]. intros i Hi. simpl in Hi. lia.
      + simpl. fold (oth c). lia.
      + rewrite E. eexists. split; [reflexivity|]. cbv beta iota. fold (nbrs c) in *.
        rewrite F2, upd_length. split; [exact H1|]. split; [exact H2|].
        split; [|split; [|split]].
        * intros c' Hc'. rewrite nth_upd by lia. destruct (Nat.eqb_spec c' c) as [->|Q]; [reflexivity|]. apply H3. lia.
        * intros c' Hc'. rewrite nth_upd_neq by lia. apply H4. lia.
        * intros c' Hc'. destruct (Nat.eq_dec c' c) as [->|Q]; [exact F1|].
          destruct (H5 c' ltac:(lia)) as (B1 & B2). split; [rewrite F2; exact B1|].
          intros i Hi. rewrite F3; [apply B2; exact Hi|]. left.
          assert (Q1 := nbrs_len c'). assert (Q2 := nsum_mono (Datatypes.S c') c oth ltac:(lia)). cbn [nsum] in Q2. lia.
        * cbn [nsum]. simpl. lia.
  Qed.

  Lemma nbrs_spec c : c < nc -> NoDup (nbrs c) /\
    forall d, In d (nbrs c) <-> d < nc /\ d <> c /\ share_node K nodes c d.
  Proof.
    intros Hc. destruct (dfold_spec c (cand K nc nodes c) [] (NoDup_nil _) (fun H => H)) as (A & B & _).
    split; [exact A|]. intros d. unfold nbrs. rewrite B, (In_cand K nc nn nodes c d M Hc). simpl. tauto.
  Qed.

  (** copying k entries of temp from s to position idx of lst *)
  Lemma copy_iter temp s acc : holds temp s acc -> forall lst idx, idx + length acc <= length lst ->
    exists lst', loop_from s (length acc) (fun i '(lst, index) =>
          do v <- getu temp i; do lst' <- set lst index (Some v); Ok (lst', index + 1)) (lst, idx)
      = Ok (lst', idx + length acc) /\ length lst' = length lst /\
      (forall i, i < length acc -> nth (idx + i) lst' None = Some (nth i acc 0)) /\
      (forall i, i < idx \/ idx + length acc <= i -> nth i lst' None = nth i lst None).
  Proof.
    intros (Hl & H). revert s Hl H. induction acc as [|a acc IH]; intros s Hl H lst idx Hr; cbn [length loop_from].
    - exists lst. rewrite Nat.add_0_r. repeat split; auto. intros i Hi. simpl in Hi. lia.
    - simpl in Hl, Hr. unfold getu at 1. rewrite (nth_error_nth' temp None) by lia.
      assert (Q := H 0 ltac:(simpl; lia)). rewrite Nat.add_0_r in Q. rewrite Q. cbn [bind nth].
      rewrite set_ok by lia. cbn [bind].
      destruct (IH (Datatypes.S s)) with (lst := upd lst idx (Some a)) (idx := idx + 1) as (lst' & E & H1 & H2 & H3).
      + lia.
      + intros i Hi. replace (Datatypes.S s + i) with (s + Datatypes.S i) by lia. rewrite H by (simpl; lia). reflexivity.
      + rewrite upd_length. lia.
      + exists lst'. rewrite E. rewrite upd_length in H1. split; [f_equal; f_equal; lia|]. split; [exact H1|]. split.
        * intros [|i] Hi.
          -- rewrite Nat.add_0_r. rewrite H3 by lia. rewrite nth_upd_eq by lia. reflexivity.
          -- replace (idx + Datatypes.S i) with (idx + 1 + i) by lia. simpl in Hi. rewrite H2 by lia. reflexivity.
        * intros i Hi. rewrite H3 by lia. apply nth_upd_neq. lia.
  Qed.

  Lemma compact_ok temp saved starts num0 : length starts = nc + 1 -> length saved = nc -> length num0 = nc ->
    (forall c, c <= nc -> nth c starts 0 = nsum c oth) ->
    (forall c, c < nc -> nth c saved 0 = length (nbrs c)) ->
    (forall c, c < nc -> holds temp (nsum c oth) (nbrs c)) ->
    let actual := nsum nc (fun c => length (nbrs c)) in 0 < actual ->
    exists r, compact_neighbors nc actual temp saved starts num0 = Ok r /\
      forall c, c < nc -> num_cells_in_cell r c = Ok (length (nbrs c)) /\
        forall i, i < length (nbrs c) -> cells_in_cell r c i = Ok (nth i (nbrs c) 0).
  Proof.
    intros Ls Lv Ln S V H actual Ha. set (nl := fun c => length (nbrs c)) in *. unfold compact_neighbors.
    rewrite set_ok by (unfold alloc; rewrite repeat_length; exact Ha). cbn [bind].
    edestruct (loop_inv (fun k st => let '(num, st, lst, index) := st in
       length num = nc /\ length st = nc + 1 /\ length lst = actual /\ index = nsum k nl /\
       (forall c, c < k -> nth c num 0 = nl c) /\
       (forall c, c < k -> nth c st 0 = nsum c nl) /\ (forall c, k <= c -> c <= nc -> nth c st 0 = nsum c oth) /\
       (forall c i, c < k -> i < nl c -> nth (nsum c nl + i) lst None = Some (nth i (nbrs c) 0))) nc)
      as ((((num & st) & lst) & index) & E & A1 & A2 & A3 & A4 & A5 & A6 & A7 & A8).
    3: { rewrite E. cbn [bind]. eexists. split; [reflexivity|]. intros c Hc.
         unfold num_cells_in_cell, cells_in_cell. cbn [cc_num cc_start cc_list]. split.
         - rewrite (get_ok num c 0) by lia. rewrite A5 by lia. reflexivity.
         - intros i Hi. rewrite (get_ok st c 0) by lia. cbn [bind]. rewrite A6 by lia. unfold getu.
           assert (Q := nsum_mono (Datatypes.S c) nc nl ltac:(lia)). cbn [nsum] in Q. fold actual in Q. fold (nl c) in Hi.
           rewrite (nth_error_nth' lst None) by lia. rewrite A8 by assumption. reflexivity. }
    - cbv beta iota. rewrite upd_length. unfold alloc. rewrite repeat_length. split; [exact Ln|]. split; [exact Ls|].
      split; [reflexivity|]. split; [reflexivity|]. split; [intros; lia|]. split; [intros; lia|].
      split; [intros; apply S; lia|]. intros; lia.
    - intros c (((num & st) & lst) & index) Hc (A1 & A2 & A3 & A4 & A5 & A6 & A7 & A8).
      rewrite (get_ok saved c 0) by lia. cbn [bind]. rewrite V by exact Hc. fold (nl c).
      rewrite set_ok by lia. cbn [bind]. rewrite (get_ok st c 0) by lia. cbn [bind].
      rewrite set_ok by lia. cbn [bind]. rewrite A7 by lia.
      assert (Q := nsum_mono (Datatypes.S c) nc nl ltac:(lia)). cbn [nsum] in Q. fold actual in Q.
      destruct (copy_iter temp (nsum c oth) (nbrs c) (H c Hc) lst index) as (lst' & E & B1 & B2 & B3).
      { fold (nl c). lia. }
      fold (nl c) in *. rewrite E. cbn [bind]. eexists. split; [reflexivity|]. cbv beta iota.
      rewrite !upd_length. split; [exact A1|]. split; [exact A2|]. split; [lia|].
      split; [cbn [nsum]; lia|]. split; [|split; [|split]].
      + intros c' Hc'. rewrite nth_upd by lia. destruct (Nat.eqb_spec c' c) as [->|Ne]; [reflexivity|]. apply A5. lia.
      + intros c' Hc'. rewrite nth_upd by lia. destruct (Nat.eqb_spec c' c) as [->|Ne]; [exact A4|]. apply A6. lia.
      + intros c' Hc' Hc2. rewrite nth_upd_neq by lia. apply A7; lia.
      + intros c' i Hc' Hi. destruct (Nat.eq_dec c' c) as [->|Ne].
        * rewrite <- A4. apply B2. exact Hi.
        * rewrite B3; [apply A8; lia|]. left.
          assert (Q2 := nsum_mono (Datatypes.S c') c nl ltac:(lia)). cbn [nsum] in Q2. lia.
  Qed.
End Fill.

Lemma nsum_pos n f : (exists c, c < n /\ 0 < f c) <-> 0 < nsum n f.
Proof.
  split.
  - intros (c & Hc & Hf). assert (Q := nsum_mono (S c) n f Hc). cbn [nsum] in Q. lia.
  - induction n as [|n IH]; cbn [nsum]; intros H; [lia|].
    destruct (Nat.eq_dec (f n) 0) as [E|E].
    + destruct IH as (c & Hc & Hf); [lia|]. exists c. split; [lia|exact Hf].
    + exists n. split; lia.
Qed.

Lemma cell_cell_ok K nc nn nodes m : mesh_ok K nc nn nodes -> build_node_cell K nc nn nodes = Ok m ->
  (exists c d, c < nc /\ d < nc /\ c <> d /\ share_node K nodes c d) ->
  exists r, build_cell_cell K nc nodes m = Ok r /\
    forall c, c < nc -> exists L,
      num_cells_in_cell r c = Ok (length L) /\
      (forall i, i < length L -> cells_in_cell r c i = Ok (nth i L 0)) /\
      NoDup L /\ (forall d, In d L <-> d < nc /\ d <> c /\ share_node K nodes c d).
Proof.
  intros M Em (c0 & d0 & Hc0 & Hd0 & Ne & Sh). assert (G := node_cell_good K nc nn nodes m M Em).
  unfold build_cell_cell.
  destruct (count_pairs_ok K nc nn nodes m M G) as (cnt & E1 & L1 & C1). rewrite E1. cbn [bind].
  destruct (starts_ok nc cnt L1) as (st & E2 & L2 & C2). rewrite E2. cbn [bind].
  assert (S : forall c, c <= nc -> nth c st 0 = nsum c (oth K nc nodes)).
  { intros c Hc. rewrite C2 by exact Hc. apply nsum_ext. intros i Hi. apply C1. lia. }
  destruct (fill_neighbors_ok K nc nn nodes m M G st nc L2 (le_n _) S) as (temp & saved & E3 & T1 & T2 & T3 & T4).
  unfold oth in E3 at 1. rewrite E3. cbn [bind].
  destruct (compact_ok K nc nodes temp saved st cnt L2 T2 L1 S T3 T4) as (r & E4 & H).
  { apply nsum_pos. exists c0. split; [exact Hc0|].
    destruct (nbrs_spec K nc nn nodes M c0 Hc0) as (_ & B).
    assert (I : In d0 (nbrs K nc nodes c0)) by (apply B; auto).
    destruct (nbrs K nc nodes c0); [destruct I|simpl; lia]. }
  exists r. split; [exact E4|]. intros c Hc. exists (nbrs K nc nodes c).
  destruct (H c Hc) as (H1 & H2). destruct (nbrs_spec K nc nn nodes M c Hc) as (N1 & N2). auto.
Qed.

Lemma cell_cell_isolated K nc nn nodes m : mesh_ok K nc nn nodes -> build_node_cell K nc nn nodes = Ok m ->
  ~ (exists c d, c < nc /\ d < nc /\ c <> d /\ share_node K nodes c d) ->
  build_cell_cell K nc nodes m = Err OOB.
Proof.
  intros M Em No. assert (G := node_cell_good K nc nn nodes m M Em).
  unfold build_cell_cell.
  destruct (count_pairs_ok K nc nn nodes m M G) as (cnt & E1 & L1 & C1). rewrite E1. cbn [bind].
  destruct (starts_ok nc cnt L1) as (st & E2 & L2 & C2). rewrite E2. cbn [bind].
  assert (S : forall c, c <= nc -> nth c st 0 = nsum c (oth K nc nodes)).
  { intros c Hc. rewrite C2 by exact Hc. apply nsum_ext. intros i Hi. apply C1. lia. }
  destruct (fill_neighbors_ok K nc nn nodes m M G st nc L2 (le_n _) S) as (temp & saved & E3 & T1 & T2 & T3 & T4).
  unfold oth in E3 at 1. rewrite E3. cbn [bind].
  replace (nsum nc (fun c => length (nbrs K nc nodes c))) with 0; [reflexivity|].
  symmetry. apply nsum_zero. intros c Hc. destruct (nbrs_spec K nc nn nodes M c Hc) as (_ & B).
  destruct (nbrs K nc nodes c) as [|d L]; [reflexivity|].
  exfalso. apply No. destruct (proj1 (B d) (or_introl eq_refl)) as (B1 & B2 & B3). exists c, d. auto.
Qed.

Lemma share_sym K nodes c d : share_node K nodes c d -> share_node K nodes d c.
Proof. intros (l & l' & n & H1 & H2). exists l', l, n. auto. Qed.

(** whether any two cells share a node can be decided *)
Lemma share_dec K nodes c d : {share_node K nodes c d} + {~ share_node K nodes c d}.
Proof.
  set (t := existsb (fun l => existsb (fun l' =>
     match nth_error nodes (c * K + l), nth_error nodes (d * K + l') with
     | Some a, Some b => a =? b | _, _ => false end) (seq 0 K)) (seq 0 K)).
  destruct t eqn:E.
  - left. apply existsb_exists in E. destruct E as (l & Hl & E). apply existsb_exists in E. destruct E as (l' & Hl' & E).
    apply in_seq in Hl. apply in_seq in Hl'.
    destruct (nth_error nodes (c * K + l)) as [a|] eqn:E1; [|discriminate].
    destruct (nth_error nodes (d * K + l')) as [b|] eqn:E2; [|discriminate].
    apply Nat.eqb_eq in E. subst b. exists l, l', a. split; split; auto; lia.
  - right. intros (l & l' & n & (H1 & H2) & (H3 & H4)).
    assert (T : t = true).
    { apply existsb_exists. exists l. split; [apply in_seq; lia|]. apply existsb_exists. exists l'.
      split; [apply in_seq; lia|]. rewrite H2, H4. apply Nat.eqb_refl. }
    congruence.
Qed.

Lemma exists_neighbour_dec K nc nodes :
  (exists c d, c < nc /\ d < nc /\ c <> d /\ share_node K nodes c d) \/
  ~ (exists c d, c < nc /\ d < nc /\ c <> d /\ share_node K nodes c d).
Proof.
  set (t := existsb (fun c => existsb (fun d => negb (c =? d) && (if share_dec K nodes c d then true else false)) (seq 0 nc)) (seq 0 nc)).
  destruct t eqn:E.
  - left. apply existsb_exists in E. destruct E as (c & Hc & E). apply existsb_exists in E. destruct E as (d & Hd & E).
    apply in_seq in Hc. apply in_seq in Hd. apply andb_true_iff in E. destruct E as (E1 & E2).
    destruct (Nat.eqb_spec c d) as [?|Ne]; [discriminate|]. destruct (share_dec K nodes c d) as [Sh|]; [|discriminate].
    exists c, d. repeat split; auto; lia.
  - right. intros (c & d & H1 & H2 & H3 & H4). assert (T : t = true).
    { apply existsb_exists. exists c. split; [apply in_seq; lia|]. apply existsb_exists. exists d.
      split; [apply in_seq; lia|]. destruct (Nat.eqb_spec c d); [contradiction|]. destruct (share_dec K nodes c d); [reflexivity|contradiction]. }
    congruence.
Qed.
