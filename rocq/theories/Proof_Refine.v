(** Proofs about node merging and the refined index maps. *)
From Coq Require Import List Arith ZArith Lia Bool Sorted.
Import ListNotations.
Require Import Verif.Base Verif.NatSum Verif.Model_Conn Verif.Proof_Conn Verif.Proof_Neigh
  Verif.Model_Patch Verif.Spec_Patch Verif.Proof_Patch Verif.Model_Refine.

Lemma init_hash_ok keys : exists T, init_hash keys = Ok T /\ length T = max_key keys + 10 /\
  forall k, In k keys -> nth k T None = Some 0%Z.
Proof.
  unfold init_hash.
  destruct (iter_inv (fun pre T => length T = max_key keys + 10 /\ forall k, In k pre -> nth k T None = Some 0%Z)
      keys (fun k t => set t k (Some 0%Z)) (repeat None (max_key keys + 10))) as (T & E & H1 & H2).
  - rewrite repeat_length. split; [reflexivity|intros k []].
  - intros pre a post T Ek (H1 & H2). assert (Ha : a <= max_key keys) by (apply max_key_ge with (n := length keys); [reflexivity|rewrite Ek; apply in_elt]).
    rewrite set_ok by lia. eexists. split; [reflexivity|]. rewrite upd_length. split; [exact H1|].
    intros k Hk. rewrite nth_upd by lia. destruct (Nat.eqb_spec k a) as [->|Ne]; [reflexivity|].
    apply in_app_or in Hk. destruct Hk as [Hk|[Hk|[]]]; [auto|congruence].
  - exists T. auto.
Qed.

Section Merge.
  Variables (k0 : nat) (tl : list nat).
  Notation keys := (k0 :: tl).
  Notation n := (length tl).

  Definition gof (q : nat) : list nat := 0 :: map S (poss q (first_with_key tl)).

  Definition minv (q : nat) (st : list (option Z) * list (option nat) * list (option nat) * nat * nat) : Prop :=
    let '(h, n2g, nig, num, gid) := st in
    length h = max_key keys + 10 /\ length n2g = S n /\ length nig = S n /\
    num = S (length (D tl q)) /\ gid = num /\
    (forall k, In k keys -> nth k h None = Some (if memb k (D tl q) then Z.of_nat (S (pidx k (D tl q))) else 0%Z)) /\
    nth 0 nig None = Some 0 /\
    (forall i, i < q -> nth (S i) nig None = Some (S (pidx (key tl i) (D tl n)))) /\
    (forall i, i < num -> nth i n2g None = Some (nth i (gof q) 0)).

  Lemma gof_len q : length (gof q) = S (length (D tl q)).
  Proof. unfold gof. cbn [length]. rewrite map_length. rewrite D_length. reflexivity. Qed.

  Lemma merge_first h : length h = max_key keys + 10 -> (forall k, In k keys -> nth k h None = Some 0%Z) ->
    exists st, merge_step keys 0 (h, repeat None (S n), repeat None (S n), 0, 0) = Ok st /\ minv 0 st.
  Proof.
    intros L H. assert (Hk := max_key_ge keys (length keys) eq_refl k0 (or_introl eq_refl)).
    unfold merge_step. rewrite (get_ok keys 0 0) by (simpl; lia). cbn [bind nth].
    unfold getu. rewrite (nth_error_nth' h None) by lia. rewrite (H k0 (or_introl eq_refl)). cbn [bind].
    change (0 <=? 0)%Z with true. cbv iota. rewrite set_ok by lia. cbn [bind].
    rewrite (nth_error_nth' (upd h k0 _) None) by (rewrite upd_length; lia). rewrite nth_upd_eq by lia. cbn [bind].
    change (0 - 1 =? -1)%Z with true. change (0 - 1 <=? -1)%Z with true. cbv iota.
    rewrite set_ok by (rewrite repeat_length; lia). cbn [bind].
    rewrite set_ok by (rewrite upd_length; lia). cbn [bind].
    eexists. split; [reflexivity|]. cbv beta iota delta [minv]. rewrite !upd_length, !repeat_length.
    repeat (split; [first [assumption|reflexivity]|]). split.
    - intros k Ik. cbn [D memb existsb]. rewrite nth_upd by (rewrite upd_length; lia).
      destruct (Nat.eqb_spec k k0) as [->|Ne]; [reflexivity|]. rewrite nth_upd_neq by lia. apply H. exact Ik.
    - split; [reflexivity|]. split; [intros; lia|]. intros i Hi. cbn [D length] in Hi. replace i with 0 by lia. reflexivity.
  Qed.

  Lemma merge_next q st : q < n -> minv q st ->
    exists st', merge_step keys (S q) st = Ok st' /\ minv (S q) st'.
  Proof.
    intros Hq HI. destruct st as ((((h & n2g) & nig) & num) & gid).
    destruct HI as (L1 & L2 & L3 & -> & -> & Hh & N0 & N1 & G).
    unfold merge_step. rewrite (get_ok keys (S q) 0) by (simpl; lia). cbn [bind nth]. fold (key tl q).
    assert (I : In (key tl q) keys) by (right; apply nth_In; exact Hq).
    assert (B := max_key_ge keys (length keys) eq_refl _ I).
    unfold getu. rewrite (nth_error_nth' h None) by lia. rewrite (Hh _ I). cbn [bind].
    assert (Dn : length (D tl q) <= q).
    { rewrite D_length. unfold firsts_before. apply (poss_len_le q (first_with_key tl)). }
    destruct (D_prefix tl (S q) n ltac:(lia)) as (l & El).
    assert (Hpre : key tl q = key tl q -> pidx (key tl q) (D tl n) = pidx (key tl q) (D tl (S q))).
    { intros _. rewrite El. apply pidx_app. apply D_In. exists q. split; [lia|reflexivity]. }
    destruct (memb (key tl q) (D tl q)) eqn:Em.
    - assert (Iq := Em). apply memb_In in Iq.
      destruct (Z.leb_spec (Z.of_nat (S (pidx (key tl q) (D tl q)))) 0); [lia|]. cbn [bind].
      rewrite (nth_error_nth' h None) by lia. rewrite (Hh _ I), Em. cbn [bind].
      destruct (Z.eqb_spec (Z.of_nat (S (pidx (key tl q) (D tl q)))) (-1)); [lia|]. cbn [bind].
      destruct (Z.leb_spec (Z.of_nat (S (pidx (key tl q) (D tl q)))) (-1)); [lia|].
      rewrite set_ok by lia. cbn [bind]. rewrite Nat2Z.id.
      eexists. split; [reflexivity|]. cbv beta iota delta [minv]. cbn [D]. rewrite Em, upd_length.
      repeat (split; [first [assumption|reflexivity]|]). split.
      { rewrite nth_upd_neq by lia. exact N0. } split.
      + intros i Hi. rewrite nth_upd by lia. destruct (Nat.eqb_spec (S i) (S q)) as [Q|Q].
        * assert (i = q) by lia. subst i. rewrite Hpre by reflexivity. cbn [D]. rewrite Em. reflexivity.
        * apply N1. lia.
      + intros i Hi. rewrite (G i Hi). unfold gof. rewrite poss_S.
        replace (first_with_key tl q) with false; [rewrite app_nil_r; reflexivity|].
        symmetry. destruct (first_with_key tl q) eqn:F; [|reflexivity]. apply first_iff in F. contradiction.
    - assert (Nq : ~ In (key tl q) (D tl q)) by (intros X; apply memb_In in X; congruence).
      change (0 <=? 0)%Z with true. cbv iota. rewrite set_ok by lia. cbn [bind].
      rewrite (nth_error_nth' (upd h _ _) None) by (rewrite upd_length; lia). rewrite nth_upd_eq by lia. cbn [bind].
      change (0 - 1 =? -1)%Z with true. change (0 - 1 <=? -1)%Z with true. cbv iota.
      rewrite set_ok by lia. cbn [bind]. rewrite set_ok by (rewrite upd_length; lia). cbn [bind].
      rewrite set_ok by lia. cbn [bind].
      eexists. split; [reflexivity|]. cbv beta iota delta [minv]. cbn [D]. rewrite Em, !upd_length, app_length. cbn [length].
      repeat (split; [first [assumption|lia]|]). split; [|split; [|split]].
      + intros k Ik. rewrite nth_upd by (rewrite upd_length; lia). destruct (Nat.eqb_spec k (key tl q)) as [->|Ne].
        * replace (memb (key tl q) (D tl q ++ [key tl q])) with true.
          -- rewrite pidx_new by exact Nq. reflexivity.
          -- symmetry. apply memb_In. apply in_or_app. right. left. reflexivity.
        * rewrite nth_upd_neq by lia. rewrite Hh by exact Ik. destruct (memb k (D tl q)) eqn:Ek.
          -- apply memb_In in Ek. rewrite pidx_app by exact Ek.
             replace (memb k (D tl q ++ [key tl q])) with true; [reflexivity|].
             symmetry. apply memb_In. apply in_or_app. left. exact Ek.
          -- replace (memb k (D tl q ++ [key tl q])) with false; [reflexivity|]. symmetry.
             destruct (memb k (D tl q ++ [key tl q])) eqn:Ek2; [|reflexivity]. apply memb_In in Ek2.
             apply in_app_or in Ek2. destruct Ek2 as [X|[X|[]]]; [apply memb_In in X; congruence|congruence].
      + rewrite nth_upd_neq by lia. exact N0.
      + intros i Hi. rewrite nth_upd by lia. destruct (Nat.eqb_spec (S i) (S q)) as [Q|Q].
        * assert (i = q) by lia. subst i. rewrite Hpre by reflexivity. cbn [D]. rewrite Em, pidx_new by exact Nq. reflexivity.
        * apply N1. lia.
      + intros i Hi. rewrite nth_upd by lia. unfold gof. rewrite poss_S.
        replace (first_with_key tl q) with true by (symmetry; apply first_iff; exact Nq).
        rewrite map_app. cbn [map]. change (0 :: map S (poss q (first_with_key tl)) ++ [S q]) with (gof q ++ [S q]).
        destruct (Nat.eqb_spec i (S (length (D tl q)))) as [->|Ne].
        * rewrite app_nth2 by (rewrite gof_len; lia). rewrite gof_len, Nat.sub_diag. reflexivity.
        * rewrite app_nth1 by (rewrite gof_len; lia). apply G. lia.
  Qed.

  Lemma merge_ok : exists m, merge_nodes keys = Ok m /\ mg_num m = S (length (D tl n)) /\
    node_in_gauss m 0 = Ok 0 /\
    (forall q, q < n -> node_in_gauss m (S q) = Ok (S (pid tl n q))) /\
    (forall i, i < mg_num m -> gauss_of_node m i = Ok (nth i (gof n) 0)).
  Proof.
    unfold merge_nodes. destruct (init_hash_ok keys) as (h & E & L & H). rewrite E. cbn [bind]. clear E.
    cbn [length]. unfold loop. cbn [loop_from].
    destruct (merge_first h L H) as (st & E & I0). rewrite E. cbn [bind].
    destruct (loop_from_inv (fun i s => minv (i - 1) s) 1 n (merge_step keys) st I0) as (((((h' & n2g) & nig) & num) & gid) & E' & I').
    - intros i s Hi Is. destruct (merge_next (i - 1) s ltac:(lia) Is) as (s' & Es & Is').
      replace (S (i - 1)) with i in Es by lia. exists s'. split; [exact Es|]. replace (S i - 1) with (S (i - 1)) by lia. exact Is'.
    - rewrite E'. cbn [bind]. replace (1 + n - 1) with n in I' by lia.
      destruct I' as (L1 & L2 & L3 & -> & -> & Hh & N0 & N1 & G).
      eexists. split; [reflexivity|]. cbn [mg_num]. split; [reflexivity|].
      unfold node_in_gauss, gauss_of_node, getu. cbn [mg_node mg_gauss]. split; [|split].
      + rewrite (nth_error_nth' nig None) by lia. rewrite N0. reflexivity.
      + intros q Hq. rewrite (nth_error_nth' nig None) by lia. rewrite N1 by exact Hq. reflexivity.
      + intros i Hi. assert (length (D tl n) <= n) by (rewrite D_length; apply (poss_len_le n (first_with_key tl))).
        rewrite (nth_error_nth' n2g None) by lia. rewrite G by exact Hi. reflexivity.
  Qed.
End Merge.

Lemma D_nodup l n : n = length l -> length (D l n) = length (nodup Nat.eq_dec l).
Proof.
  intros ->. apply Nat.le_antisymm; apply NoDup_incl_length.
  - apply D_NoDup.
  - intros x Hx. apply nodup_In. apply D_In in Hx. destruct Hx as (q & Hq & <-). apply nth_In. exact Hq.
  - apply NoDup_nodup.
  - intros x Hx. apply nodup_In in Hx. apply (In_nth l x 0) in Hx. destruct Hx as (q & Hq & E).
    apply D_In. exists q. auto.
Qed.

Lemma merge_count k0 tl m : merge_nodes (k0 :: tl) = Ok m ->
  mg_num m = length (nodup Nat.eq_dec (k0 :: tl)) + (if in_dec Nat.eq_dec k0 tl then 1 else 0).
Proof.
  intros E. destruct (merge_ok k0 tl) as (m' & E' & Hn & _). rewrite E in E'. inversion E'; subst m'.
  rewrite Hn, (D_nodup tl _ eq_refl). cbn [nodup]. destruct (in_dec Nat.eq_dec k0 tl); cbn [length]; lia.
Qed.

Lemma first_node k0 tl m q : merge_nodes (k0 :: tl) = Ok m -> q < length tl -> first_with_key tl q = true ->
  node_in_gauss m (S q) = Ok (S (firsts_before tl q)) /\ gauss_of_node m (S (firsts_before tl q)) = Ok (S q).
Proof.
  intros E Hq F. destruct (merge_ok k0 tl) as (m' & E' & Hn & _ & H2 & H3). rewrite E in E'. inversion E'; subst m'.
  rewrite H2, (pid_first tl _ eq_refl q Hq F) by exact Hq. split; [reflexivity|].
  assert (Hl : firsts_before tl q < length (D tl (length tl))).
  { rewrite <- (pid_first tl _ eq_refl q Hq F). apply pid_lt. exact Hq. }
  rewrite H3 by lia. unfold gof. cbn [nth]. f_equal.
  rewrite (nth_indep _ 0 (S 0)) by (rewrite map_length; rewrite D_length in Hl; exact Hl).
  rewrite map_nth. f_equal.
  (* the q-th first position *)
  assert (Spl : poss (length tl) (first_with_key tl) = poss q (first_with_key tl) ++ q :: filter (first_with_key tl) (seq (S q) (length tl - S q))).
  { unfold poss. replace (length tl) with (q + S (length tl - S q)) at 1 by lia. rewrite seq_app, filter_app.
    f_equal. cbn [seq filter Nat.add]. rewrite F. reflexivity. }
  rewrite Spl. unfold firsts_before. fold (poss q (first_with_key tl)).
  rewrite app_nth2, Nat.sub_diag by lia. reflexivity.
Qed.

(** ---- index maps ---- *)
Lemma pos4 ne ns q : q < ne * ns * ns * ns ->
  q / ns / ns / ns < ne /\ q / ns / ns mod ns < ns /\ q / ns mod ns < ns /\ q mod ns < ns /\
  q = q mod ns + (q / ns mod ns) * ns + (q / ns / ns mod ns) * ns * ns + ns * ns * ns * (q / ns / ns / ns).
Proof.
  intros H. assert (ns <> 0) by (intros ->; lia).
  destruct (divmod_pos q ns (ne * ns * ns) H) as (A1 & A2 & A3).
  destruct (divmod_pos (q / ns) ns (ne * ns) A1) as (B1 & B2 & B3).
  destruct (divmod_pos (q / ns / ns) ns ne B1) as (C1 & C2 & C3).
  repeat (split; [assumption|]).
  set (a := q / ns / ns / ns) in *. set (b := q / ns / ns mod ns) in *. set (c := q / ns mod ns) in *. set (d := q mod ns) in *.
  rewrite <- A3 at 1. rewrite <- B3. rewrite <- C3. ring.
Qed.

Lemma pos4_inv ns e k j i : i < ns -> j < ns -> k < ns ->
  let q := i + j * ns + k * ns * ns + ns * ns * ns * e in
  q / ns / ns / ns = e /\ q / ns / ns mod ns = k /\ q / ns mod ns = j /\ q mod ns = i.
Proof.
  intros Hi Hj Hk q. assert (E : q = ((e * ns + k) * ns + j) * ns + i) by (unfold q; ring). rewrite E.
  destruct (digit_lo ns ((e * ns + k) * ns + j) i Hi) as (-> & ->).
  destruct (digit_lo ns (e * ns + k) j Hj) as (-> & ->).
  destruct (digit_lo ns e k Hk) as (-> & ->). auto.
Qed.

Lemma pos4_lt ne ns e k j i : e < ne -> i < ns -> j < ns -> k < ns ->
  i + j * ns + k * ns * ns + ns * ns * ns * e < ne * ns * ns * ns.
Proof.
  intros He Hi Hj Hk.
  assert (i + j * ns < ns * ns) by nia. assert (i + j * ns + k * ns * ns < ns * ns * ns) by nia. nia.
Qed.

(** write eight consecutive entries *)
Lemma write8 (vals : list nat) lst a : length vals = 8 -> a + 8 <= length lst ->
  exists lst', loop 8 (fun l g => do v <- get vals l; set g (a + l) (Some v)) lst = Ok lst' /\
    length lst' = length lst /\
    (forall l, l < 8 -> nth (a + l) lst' None = Some (nth l vals 0)) /\
    (forall p, p < a \/ a + 8 <= p -> nth p lst' None = nth p lst None).
Proof.
  intros L H.
  edestruct (loop_inv (fun i l => length l = length lst /\ (forall k, k < i -> nth (a + k) l None = Some (nth k vals 0)) /\
     (forall j, j < a \/ a + 8 <= j -> nth j l None = nth j lst None)) 8) as (l & E & H1 & H2 & H3).
  3: { exists l. split; [exact E|]. auto. }
  - split; [reflexivity|]. split; [intros; lia|reflexivity].
  - intros k l Hk (H1 & H2 & H3). rewrite (get_ok _ k 0) by lia. cbn [bind].
    rewrite set_ok by lia. eexists. split; [reflexivity|]. rewrite upd_length. split; [exact H1|]. split.
    + intros k' Hk'. rewrite nth_upd by lia. destruct (Nat.eqb_spec (a + k') (a + k)) as [E|E].
      * assert (k' = k) by lia. subst k'. reflexivity.
      * apply H2. lia.
    + intros j Hj. rewrite nth_upd_neq by lia. apply H3. exact Hj.
Qed.

(** Gauss point of local corner l of the refined cell at flat position q *)
Definition gpt (ns n1 q l : nat) : nat :=
  nth l (eight n1 (q mod ns) (q / ns mod ns) (q / ns / ns mod ns)) 0 + n1 * n1 * n1 * (q / ns / ns / ns).

Lemma maps_ok ne ns n1 : exists m, build_maps ne ns n1 = Ok m /\
  forall q, q < ne * ns * ns * ns ->
    (forall l, l < 8 -> gauss_in_cell m q l = Ok (gpt ns n1 q l)) /\
    elems_in_cell m q = Ok (q / ns / ns / ns) /\
    getu (rm_cie m) q = Ok q.
Proof.
  unfold build_maps.
  rewrite (loop4 ne ns ns ns (fun e k j i '(g, cie, eic) =>
     let p := map (fun x => x + n1 * n1 * n1 * e) (eight n1 i j k) in
     let cell_lid := i + j * ns + k * ns * ns in
     let cell_gid := cell_lid + ns * ns * ns * e in
     do g' <- loop 8 (fun l g => do v <- get p l; set g (cell_gid * 8 + l) (Some v)) g;
     do cie' <- set cie (e * (ns * ns * ns) + cell_lid) (Some cell_gid);
     do eic' <- set eic cell_gid (Some e);
     Ok (g', cie', eic'))).
  edestruct (loop_inv (fun q st => let '(g, cie, eic) := st in
      length g = ne * (ns * ns * ns) * 8 /\ length cie = ne * (ns * ns * ns) /\ length eic = ne * (ns * ns * ns) /\
      forall q', q' < q -> (forall l, l < 8 -> nth (q' * 8 + l) g None = Some (gpt ns n1 q' l)) /\
        nth q' eic None = Some (q' / ns / ns / ns) /\ nth q' cie None = Some q') (ne * ns * ns * ns))
    as (((g & cie) & eic) & E & L1 & L2 & L3 & H).
  3: { rewrite E. cbn [bind]. eexists. split; [reflexivity|]. intros q Hq. destruct (H q Hq) as (H1 & H2 & H3).
       assert (q < ne * (ns * ns * ns)) by (replace (ne * (ns * ns * ns)) with (ne * ns * ns * ns) by ring; exact Hq).
       unfold gauss_in_cell, elems_in_cell, getu. cbn [rm_gauss rm_cie rm_eic]. split; [|split].
       - intros l Hl. rewrite (nth_error_nth' g None) by lia. rewrite H1 by exact Hl. reflexivity.
       - rewrite (nth_error_nth' eic None) by lia. rewrite H2. reflexivity.
       - rewrite (nth_error_nth' cie None) by lia. rewrite H3. reflexivity. }
  - cbv beta iota. rewrite !repeat_length. repeat (split; [reflexivity|]). intros; lia.
  - intros q ((g & cie) & eic) Hq (L1 & L2 & L3 & H).
    assert (Hq' : q < ne * (ns * ns * ns)) by (replace (ne * (ns * ns * ns)) with (ne * ns * ns * ns) by ring; exact Hq).
    destruct (pos4 ne ns q Hq) as (P1 & P2 & P3 & P4 & P5). cbv zeta.
    rewrite <- P5.
    replace (q / ns / ns / ns * (ns * ns * ns) + (q mod ns + q / ns mod ns * ns + q / ns / ns mod ns * ns * ns)) with q by lia.
    destruct (write8 (map (fun x => x + n1 * n1 * n1 * (q / ns / ns / ns)) (eight n1 (q mod ns) (q / ns mod ns) (q / ns / ns mod ns))) g (q * 8))
      as (g' & Eg & G1 & G2 & G3); [reflexivity|lia|].
    rewrite Eg. cbn [bind]. rewrite !set_ok by lia. cbn [bind].
    eexists. split; [reflexivity|]. cbv beta iota. rewrite !upd_length. repeat (split; [lia|]).
    intros q' Hq2. destruct (Nat.eq_dec q' q) as [->|Ne].
    + rewrite !nth_upd_eq by lia. split; [|auto]. intros l Hl. rewrite G2 by exact Hl. unfold gpt.
      do 8 (destruct l as [|l]; [reflexivity|]). lia.
    + rewrite !nth_upd_neq by lia. destruct (H q' ltac:(lia)) as (H1 & H2 & H3). split; [|auto].
      intros l Hl. rewrite G3 by lia. apply H1. exact Hl.
Qed.

Lemma eight_bits n1 i j k l : l < 8 ->
  nth l (eight n1 i j k) 0 = (i + l mod 2) + (j + l / 2 mod 2) * n1 + (k + l / 4) * n1 * n1.
Proof.
  intros Hl. do 8 (destruct l as [|l]; [cbn -[Nat.mul Nat.add]; change (1 mod 2) with 1; rewrite ?Nat.add_0_r; try reflexivity|]).
  all: try lia.
Qed.

Lemma refined_maps ne ns n1 : exists m, build_maps ne ns n1 = Ok m /\
  forall e k j i, e < ne -> k < ns -> j < ns -> i < ns ->
    let cell := i + j * ns + k * ns * ns + ns * ns * ns * e in
    cells_in_elem m ns e (i + j * ns + k * ns * ns) = Ok cell /\
    elems_in_cell m cell = Ok e /\
    forall l, l < 8 -> gauss_in_cell m cell l =
      Ok ((i + l mod 2) + (j + l / 2 mod 2) * n1 + (k + l / 4) * n1 * n1 + n1 * n1 * n1 * e).
Proof.
  destruct (maps_ok ne ns n1) as (m & E & H). exists m. split; [exact E|].
  intros e k j i He Hk Hj Hi cell. assert (Hc := pos4_lt ne ns e k j i He Hi Hj Hk). fold cell in Hc.
  destruct (pos4_inv ns e k j i Hi Hj Hk) as (Q1 & Q2 & Q3 & Q4). fold cell in Q1, Q2, Q3, Q4.
  destruct (H cell Hc) as (H1 & H2 & H3). split; [|split].
  - unfold cells_in_elem. replace (e * (ns * ns * ns) + (i + j * ns + k * ns * ns)) with cell by (unfold cell; ring). exact H3.
  - rewrite H2, Q1. reflexivity.
  - intros l Hl. rewrite H1 by exact Hl. unfold gpt. rewrite Q1, Q2, Q3, Q4, eight_bits by exact Hl. reflexivity.
Qed.

(** every refined cell arises from exactly one (e, k, j, i) *)
Lemma refined_cells_unique ne ns c : c < ne * ns * ns * ns ->
  exists e k j i, (e < ne /\ k < ns /\ j < ns /\ i < ns /\ c = i + j * ns + k * ns * ns + ns * ns * ns * e) /\
    forall e' k' j' i', k' < ns -> j' < ns -> i' < ns -> c = i' + j' * ns + k' * ns * ns + ns * ns * ns * e' ->
      e' = e /\ k' = k /\ j' = j /\ i' = i.
Proof.
  intros H. destruct (pos4 ne ns c H) as (P1 & P2 & P3 & P4 & P5).
  exists (c / ns / ns / ns), (c / ns / ns mod ns), (c / ns mod ns), (c mod ns). split; [auto|].
  intros e' k' j' i' Hk Hj Hi E. destruct (pos4_inv ns e' k' j' i' Hi Hj Hk) as (Q1 & Q2 & Q3 & Q4).
  rewrite <- E in Q1, Q2, Q3, Q4. auto.
Qed.

(** nodes of the refined cells *)
Lemma cell_nodes_ok ne ns n1 (m : merged) (nig : nat -> nat) :
  (forall q l, q < ne * ns * ns * ns -> l < 8 -> node_in_gauss m (gpt ns n1 q l) = Ok (nig (gpt ns n1 q l))) ->
  exists nic, build_cell_nodes ne ns n1 m = Ok nic /\
    forall q l, q < ne * ns * ns * ns -> l < 8 -> getu nic (q * 8 + l) = Ok (nig (gpt ns n1 q l)).
Proof.
  intros HG. unfold build_cell_nodes.
  rewrite (loop4 ne ns ns ns (fun e k j i '(nic, cell_gid) =>
     let p := map (fun x => x + n1 * n1 * n1 * e) (eight n1 i j k) in
     do nic' <- loop 8 (fun l nic => do q <- get p l; do n <- node_in_gauss m q; set nic (cell_gid * 8 + l) (Some n)) nic;
     Ok (nic', cell_gid + 1))).
  edestruct (loop_inv (fun q st => let '(nic, gid) := st in
      length nic = ne * (ns * ns * ns) * 8 /\ gid = q /\
      forall q', q' < q -> forall l, l < 8 -> nth (q' * 8 + l) nic None = Some (nig (gpt ns n1 q' l))) (ne * ns * ns * ns))
    as ((nic & gid) & E & L1 & L2 & H).
  3: { rewrite E. cbn [bind]. eexists. split; [reflexivity|]. intros q l Hq Hl. unfold getu.
       assert (q < ne * (ns * ns * ns)) by (replace (ne * (ns * ns * ns)) with (ne * ns * ns * ns) by ring; exact Hq).
       rewrite (nth_error_nth' nic None) by lia. rewrite (H q Hq l Hl). reflexivity. }
  - cbv beta iota. rewrite !repeat_length. repeat (split; [reflexivity|]). intros; lia.
  - intros q (nic & gid) Hq (L1 & -> & H). cbv zeta.
    assert (Hq' : q < ne * (ns * ns * ns)) by (replace (ne * (ns * ns * ns)) with (ne * ns * ns * ns) by ring; exact Hq).
    set (p := map (fun x => x + n1 * n1 * n1 * (q / ns / ns / ns)) (eight n1 (q mod ns) (q / ns mod ns) (q / ns / ns mod ns))).
    rewrite (loop_ext 8 _ (fun l g => do v <- get (map nig p) l; set g (q * 8 + l) (Some v))).
    2: { intros l s Hl. rewrite (get_ok p l 0) by exact Hl. cbn [bind].
         replace (nth l p 0) with (gpt ns n1 q l) by (unfold gpt, p; do 8 (destruct l as [|l]; [reflexivity|]); lia).
         rewrite HG by assumption. cbn [bind]. rewrite (get_ok (map nig p) l 0) by exact Hl. cbn [bind].
         f_equal. f_equal. unfold gpt, p. do 8 (destruct l as [|l]; [reflexivity|]). lia. }
    destruct (write8 (map nig p) nic (q * 8)) as (g' & Eg & G1 & G2 & G3); [reflexivity|lia|].
    rewrite Eg. cbn [bind]. eexists. split; [reflexivity|]. cbv beta iota. split; [lia|]. split; [lia|].
    intros q' Hq2 l Hl. destruct (Nat.eq_dec q' q) as [->|Ne].
    + rewrite G2 by exact Hl. f_equal. unfold gpt, p. do 8 (destruct l as [|l]; [reflexivity|]). lia.
    + rewrite G3 by lia. apply H; lia.
Qed.

Lemma gpt_lt ne ns n1 q l : ns < n1 -> q < ne * ns * ns * ns -> l < 8 -> gpt ns n1 q l < ne * n1 * n1 * n1.
Proof.
  intros Hn Hq Hl. destruct (pos4 ne ns q Hq) as (P1 & P2 & P3 & P4 & _). unfold gpt. rewrite eight_bits by exact Hl.
  apply pos4_lt; try assumption.
  - assert (l mod 2 < 2) by (apply Nat.mod_upper_bound; lia). lia.
  - assert (l / 2 mod 2 < 2) by (apply Nat.mod_upper_bound; lia). lia.
  - assert (l / 4 < 2) by (apply Nat.div_lt_upper_bound; lia). lia.
Qed.

Lemma refined_nodes ne ns n1 keys m : ns < n1 -> length keys = ne * n1 * n1 * n1 -> merge_nodes keys = Ok m ->
  exists nic, build_cell_nodes ne ns n1 m = Ok nic /\
  forall e k j i l, e < ne -> k < ns -> j < ns -> i < ns -> l < 8 ->
    let cell := i + j * ns + k * ns * ns + ns * ns * ns * e in
    exists n, getu nic (cell * 8 + l) = Ok n /\ n < mg_num m /\
      node_in_gauss m ((i + l mod 2) + (j + l / 2 mod 2) * n1 + (k + l / 4) * n1 * n1 + n1 * n1 * n1 * e) = Ok n.
Proof.
  intros Hn Lk Em.
  assert (A : forall g, g < ne * n1 * n1 * n1 -> exists n, node_in_gauss m g = Ok n /\ n < mg_num m).
  { intros g Hg. destruct keys as [|k0 tl]; [simpl in Lk; lia|].
    destruct (merge_ok k0 tl) as (m' & E' & H1 & H2 & H3 & _). rewrite Em in E'. inversion E'; subst m'.
    destruct g as [|g]; [exists 0; split; [exact H2|lia]|]. simpl in Lk.
    exists (S (pid tl (length tl) g)). split; [apply H3; lia|]. rewrite H1.
    assert (Q := pid_lt tl (length tl) g ltac:(lia)). unfold P in Q. lia. }
  set (nig := fun g => match node_in_gauss m g with Ok n => n | Err _ => 0 end).
  assert (Hnig : forall g, g < ne * n1 * n1 * n1 -> node_in_gauss m g = Ok (nig g)).
  { intros g Hg. destruct (A g Hg) as (x & E & _). unfold nig. rewrite E. reflexivity. }
  destruct (cell_nodes_ok ne ns n1 m nig) as (nic & E & H).
  { intros q l Hq Hl. apply Hnig. apply gpt_lt; assumption. }
  exists nic. split; [exact E|]. intros e k j i l He Hk Hj Hi Hl cell.
  assert (Hc := pos4_lt ne ns e k j i He Hi Hj Hk). fold cell in Hc.
  destruct (pos4_inv ns e k j i Hi Hj Hk) as (Q1 & Q2 & Q3 & Q4). fold cell in Q1, Q2, Q3, Q4.
  assert (G := gpt_lt ne ns n1 cell l Hn Hc Hl).
  exists (nig (gpt ns n1 cell l)). split; [apply H; assumption|].
  assert (EG : gpt ns n1 cell l = (i + l mod 2) + (j + l / 2 mod 2) * n1 + (k + l / 4) * n1 * n1 + n1 * n1 * n1 * e).
  { unfold gpt. rewrite Q1, Q2, Q3, Q4, eight_bits by exact Hl. reflexivity. }
  rewrite <- EG. destruct (A _ G) as (x & Ex & Hx). assert (E2 := Hnig _ G). rewrite Ex in E2. injection E2 as E2. subst x. auto.
Qed.
