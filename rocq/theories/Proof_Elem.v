(** Proofs about build_element_connectivity (swage/swage.cpp:1648-1864). *)
From Coq Require Import List Arith Lia Sorted Bool.
Import ListNotations.
Require Import Verif.Base Verif.NatSum Verif.Model_Conn Verif.Spec_Conn Verif.Proof_Conn Verif.Proof_Neigh.

(** the element-node pass computes the same structure as the cell-node builder, and copies the node ids *)
Lemma elem_node_ok G ne nn gn : mesh_ok G ne nn gn ->
  exists m, build_elem_node G ne nn gn = Ok (m, map Some gn) /\ build_node_cell G ne nn gn = Ok m.
Proof.
  intros M. assert (HL := proj1 M). unfold build_elem_node.
  rewrite (loop_nested ne G (fun e g '(cnt, nie) =>
        do n <- get gn (e * G + g); do v <- get cnt n; do cnt' <- set cnt n (v + 1);
        do nie' <- set nie (e * G + g) (Some n); Ok (cnt', nie'))).
  unfold build_node_cell, count_incidences.
  rewrite (loop_nested ne G (fun c l cnt => do n <- get gn (c * G + l); do v <- get cnt n; set cnt n (v + 1))).
  (* both loops in lock step *)
  assert (L : forall k, k <= ne * G -> exists cnt nie,
     loop k (fun p '(cnt, nie) => do n <- get gn (p / G * G + p mod G); do v <- get cnt n; do cnt' <- set cnt n (v + 1);
        do nie' <- set nie (p / G * G + p mod G) (Some n); Ok (cnt', nie')) (repeat 0 nn, alloc (ne * G)) = Ok (cnt, nie) /\
     loop k (fun p cnt => do n <- get gn (p / G * G + p mod G); do v <- get cnt n; set cnt n (v + 1)) (repeat 0 nn) = Ok cnt /\
     length cnt = nn /\ length nie = ne * G /\ (forall q, q < k -> nth q nie None = Some (nth q gn 0)) /\
     (forall n, n < nn -> nth n cnt 0 = length (inc gn n k))).
  { induction k as [|k IH]; intros Hk.
    - exists (repeat 0 nn), (alloc (ne * G)). unfold loop. cbn [loop_from]. unfold alloc. rewrite !repeat_length.
      repeat split; auto; [intros; lia|]. intros n Hn. apply nth_repeat.
    - destruct IH as (cnt & nie & E1 & E2 & L1 & L2 & Q & C); [lia|].
      unfold loop in *. replace (S k) with (k + 1) by lia. rewrite !loop_from_app, E1, E2. cbn [bind loop_from].
      rewrite Nat.add_0_l. destruct (divmod_pos k G ne ltac:(lia)) as (_ & _ & E). rewrite E.
      assert (Hn := nodes_lt _ _ _ _ k M ltac:(lia)).
      rewrite (get_ok gn k 0) by lia. cbn [bind]. rewrite (get_ok cnt _ 0) by lia. cbn [bind].
      rewrite set_ok by lia. cbn [bind]. rewrite set_ok by lia. cbn [bind].
      eexists _, _. split; [reflexivity|]. split; [reflexivity|]. rewrite !upd_length.
      split; [exact L1|]. split; [exact L2|]. split.
      + intros q Hq. rewrite nth_upd by lia. destruct (Nat.eqb_spec q k) as [->|Ne]; [reflexivity|]. apply Q. lia.
      + intros n Hn'. rewrite nth_upd by lia. replace (k + 1) with (S k) by lia. rewrite inc_S, app_length.
        destruct (Nat.eqb_spec n (nth k gn 0)) as [Ee|Ee].
        * subst n. rewrite Nat.eqb_refl, C by lia. reflexivity.
        * destruct (Nat.eqb_spec (nth k gn 0) n); [lia|]. rewrite C by lia. simpl. lia. }
  destruct (L (ne * G) (le_n _)) as (cnt & nie & E1 & E2 & L1 & L2 & Q & C). rewrite E1, E2. cbn [bind].
  assert (Sz : loop nn (fun n acc => do v <- get cnt n; Ok (acc + v)) 0 = Ok (ne * G)).
  { destruct (loop_inv (fun k acc => acc = nsum k (fun n => length (inc gn n (ne * G)))) nn
       (fun n acc => do v <- get cnt n; Ok (acc + v)) 0) as (a & E & H).
    - reflexivity.
    - intros i a Hi ->. rewrite (get_ok cnt i 0) by lia. cbn [bind]. eexists. split; [reflexivity|].
      cbn [nsum]. rewrite C by exact Hi. reflexivity.
    - rewrite E, H, inc_total; [reflexivity|]. intros q Hq. apply (nodes_lt _ _ _ _ q M Hq). }
  rewrite Sz. cbn [bind].
  destruct (starts_ok nn cnt L1) as (st & E3 & L3 & C3). rewrite E3. cbn [bind].
  assert (S := starts_off G ne nn gn cnt st M L1 C L3 C3).
  destruct (fill_ok G ne nn gn st (fun c _ => c) M L3 S) as (lst & saved & E4 & F). rewrite E4. cbn [bind].
  eexists. split; [|reflexivity]. f_equal. f_equal.
  apply nth_ext with (d := None) (d' := Some 0); [rewrite map_length; lia|].
  intros q Hq. rewrite map_nth. apply Q. lia.
Qed.

Section Rows.
  Variables (G ne nn : nat) (gn : list nat) (m : node_cells).
  Hypotheses (M : mesh_ok G ne nn gn) (Gd : nc_good G ne nn gn m).
  Let o := oth G ne gn.
  Let nb := nbrs G ne gn.

  Lemma alloc_ragged_ok starts : length starts = ne + 1 -> (forall c, c <= ne -> nth c starts 0 = nsum c o) ->
    alloc_ragged ne starts = Ok (map (fun e => alloc (o e)) (seq 0 ne) ++ [alloc (nsum ne o)]).
  Proof.
    intros Ls S. unfold alloc_ragged.
    destruct (loop_inv (fun k rows => rows = map (fun e => alloc (o e)) (seq 0 k)) ne
      (fun e rows => do a <- get starts e; do b <- get starts (e + 1); Ok (rows ++ [alloc (b - a)])) []) as (rows & E & H).
    - reflexivity.
    - intros e rows He ->. rewrite (get_ok starts e 0) by lia. cbn [bind].
      rewrite (get_ok starts (e + 1) 0) by lia. cbn [bind]. eexists. split; [reflexivity|].
      rewrite seq_S, map_app. cbn [map]. rewrite !S by lia. replace (e + 1) with (Datatypes.S e) by lia. cbn [nsum].
      do 2 f_equal. f_equal. simpl. lia.
    - rewrite E. cbn [bind]. rewrite (get_ok starts ne 0), S by lia. cbn [bind]. rewrite H. reflexivity.
  Qed.

  Lemma copy_row_ok temp s acc e : holds temp s acc -> forall rows, e < length rows ->
    length acc <= length (nth e rows []) ->
    exists row', loop (length acc) (fun i rows => do v <- getu temp (s + i); do row <- get rows e;
          do row' <- set row i (Some v); set rows e row') rows = Ok (upd rows e row') /\
      length row' = length (nth e rows []) /\ forall i, i < length acc -> nth i row' None = Some (nth i acc 0).
  Proof.
    intros (Hl & H) rows He Hr.
    destruct (loop_inv (fun k r => exists row', r = upd rows e row' /\ length row' = length (nth e rows []) /\
        forall i, i < k -> nth i row' None = Some (nth i acc 0)) (length acc)
        (fun i rows => do v <- getu temp (s + i); do row <- get rows e;
          do row' <- set row i (Some v); set rows e row') rows) as (r & E & row' & -> & A & B).
    - exists (nth e rows []). rewrite upd_same by exact He. repeat split. intros; lia.
    - intros i r Hi (row & -> & A & B). unfold getu. rewrite (nth_error_nth' temp None) by lia.
      rewrite H by exact Hi. cbn [bind].
      rewrite (get_ok _ e []) by (rewrite upd_length; exact He). rewrite nth_upd_eq by exact He. cbn [bind].
      rewrite set_ok by lia. cbn [bind]. rewrite set_ok by (rewrite upd_length; exact He).
      eexists. split; [reflexivity|]. rewrite upd_upd. eexists. split; [reflexivity|].
      rewrite upd_length. split; [exact A|]. intros j Hj. rewrite nth_upd by lia.
      destruct (Nat.eqb_spec j i) as [->|Ne]; [reflexivity|]. apply B. lia.
    - exists row'. auto.
  Qed.

  Lemma nth_rows0 e : e < ne -> nth e (map (fun e => alloc (o e)) (seq 0 ne) ++ [alloc (nsum ne o)]) [] = alloc (o e).
  Proof.
    intros He. rewrite app_nth1 by (rewrite map_length, seq_length; exact He).
    rewrite (nth_indep _ [] (alloc (o 0))) by (rewrite map_length, seq_length; exact He).
    rewrite (map_nth (fun e => alloc (o e))). rewrite seq_nth by exact He. reflexivity.
  Qed.

  Lemma elem_elem_ok numcells : ne <= numcells ->
    exists r, build_elem_elem G ne numcells gn m = Ok r /\
      forall e, e < ne -> num_elems_in_elem r e = Ok (length (nb e)) /\
        forall i, i < length (nb e) -> elems_in_elem r e i = Ok (nth i (nb e) 0).
  Proof.
    intros Hss. unfold build_elem_elem.
    destruct (count_pairs_ok G ne nn gn m M Gd) as (cnt & E1 & L1 & C1). rewrite E1. cbn [bind].
    destruct (starts_ok ne cnt L1) as (st & E2 & L2 & C2). rewrite E2. cbn [bind].
    assert (S : forall c, c <= ne -> nth c st 0 = nsum c o).
    { intros c Hc. rewrite C2 by exact Hc. apply nsum_ext. intros i Hi. apply C1. lia. }
    destruct (fill_neighbors_ok G ne nn gn m M Gd st numcells L2 Hss S) as (temp & saved & E3 & T1 & T2 & T3 & T4).
    unfold oth in E3 at 1. rewrite E3. cbn [bind].
    rewrite (alloc_ragged_ok st L2 S). cbn [bind]. unfold copy_rows.
    set (rows0 := map (fun e => alloc (o e)) (seq 0 ne) ++ [alloc (nsum ne o)]).
    assert (Lr : length rows0 = ne + 1) by (unfold rows0; rewrite app_length, map_length, seq_length; reflexivity).
    edestruct (loop_inv (fun k st => let '(num, rows) := st in
       length num = ne /\ length rows = ne + 1 /\
       (forall e, e < k -> nth e num 0 = length (nb e)) /\
       (forall e, k <= e -> e < ne -> nth e rows [] = alloc (o e)) /\
       (forall e, e < k -> length (nb e) <= length (nth e rows []) /\
          forall i, i < length (nb e) -> nth i (nth e rows []) None = Some (nth i (nb e) 0))) ne)
      as ((num & rows) & E & A1 & A2 & A3 & A4 & A5).
    3: { rewrite E. cbn [bind]. eexists. split; [reflexivity|]. intros e He.
         unfold num_elems_in_elem, elems_in_elem. cbn [ee_num ee_rows]. split.
         - rewrite (get_ok num e 0) by lia. rewrite A3 by exact He. reflexivity.
         - intros i Hi. rewrite (get_ok rows e []) by lia. cbn [bind]. destruct (A5 e He) as (B1 & B2).
           unfold getu. rewrite (nth_error_nth' _ None) by lia. rewrite B2 by exact Hi. reflexivity. }
    - cbv beta iota. split; [exact L1|]. split; [exact Lr|]. split; [intros; lia|]. split; [|intros; lia].
      intros e _ He. apply nth_rows0. exact He.
    - intros e (num & rows) He (A1 & A2 & A3 & A4 & A5).
      rewrite (get_ok saved e 0) by lia. cbn [bind]. rewrite T3 by exact He. fold nb.
      rewrite set_ok by lia. cbn [bind]. rewrite (get_ok st e 0) by lia. cbn [bind]. rewrite S by lia.
      destruct (copy_row_ok temp (nsum e o) (nb e) e (T4 e He) rows) as (row' & Ec & B1 & B2).
      + lia.
      + rewrite A4 by lia. unfold alloc. rewrite repeat_length. apply nbrs_len.
      + rewrite Ec. cbn [bind]. eexists. split; [reflexivity|]. cbv beta iota. rewrite !upd_length.
        split; [exact A1|]. split; [exact A2|]. split; [|split].
        * intros e' He'. rewrite nth_upd by lia. destruct (Nat.eqb_spec e' e) as [->|Ne]; [reflexivity|]. apply A3. lia.
        * intros e' H1 H2. rewrite nth_upd_neq by lia. apply A4; lia.
        * intros e' He'. rewrite nth_upd by lia. destruct (Nat.eqb_spec e' e) as [->|Ne].
          -- split; [|exact B2]. rewrite B1, A4 by lia. unfold alloc. rewrite repeat_length. apply nbrs_len.
          -- apply A5. lia.
  Qed.
End Rows.

Lemma elem_elem_spec G ne nn gn m numcells : mesh_ok G ne nn gn -> build_node_cell G ne nn gn = Ok m ->
  ne <= numcells ->
  exists r, build_elem_elem G ne numcells gn m = Ok r /\
    forall e, e < ne -> exists L,
      num_elems_in_elem r e = Ok (length L) /\
      (forall i, i < length L -> elems_in_elem r e i = Ok (nth i L 0)) /\
      NoDup L /\ (forall d, In d L <-> d < ne /\ d <> e /\ share_node G gn e d).
Proof.
  intros M Em Hn. assert (Gd := node_cell_good G ne nn gn m M Em).
  destruct (elem_elem_ok G ne nn gn m M Gd numcells Hn) as (r & E & H). exists r. split; [exact E|].
  intros e He. exists (nbrs G ne gn e). destruct (H e He) as (H1 & H2).
  destruct (nbrs_spec G ne nn gn M e He) as (N1 & N2). auto.
Qed.
