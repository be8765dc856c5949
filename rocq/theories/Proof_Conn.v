From Coq Require Import List Arith Lia Sorted.
Import ListNotations.
Require Import Verif.Base Verif.NatSum Verif.Model_Conn Verif.Spec_Conn.

(** positions of node n among the first p entries *)
Definition inc (nodes : list nat) (n p : nat) : list nat := poss p (fun q => nth q nodes 0 =? n).

Lemma inc_S nodes n p : inc nodes n (S p) = inc nodes n p ++ (if nth p nodes 0 =? n then [p] else []).
Proof. unfold inc. rewrite poss_S. reflexivity. Qed.

Lemma nodes_lt K nc nn nodes p : mesh_ok K nc nn nodes -> p < nc * K -> nth p nodes 0 < nn.
Proof.
  intros (HL & HF) Hp. rewrite Forall_forall in HF. apply HF. apply nth_In. lia.
Qed.

Lemma count_ok K nc nn nodes : mesh_ok K nc nn nodes ->
  exists cnt, count_incidences K nc nn nodes = Ok cnt /\ length cnt = nn /\
    forall n, n < nn -> nth n cnt 0 = length (inc nodes n (nc * K)).
Proof.
  intros M. assert (HL := proj1 M). unfold count_incidences.
  rewrite (loop_nested nc K (fun c l cnt => do n <- get nodes (c * K + l); do v <- get cnt n; set cnt n (v + 1))).
  apply (loop_inv (fun p cnt => length cnt = nn /\ forall n, n < nn -> nth n cnt 0 = length (inc nodes n p))).
  - rewrite repeat_length. split; [reflexivity|]. intros n Hn. rewrite nth_repeat. reflexivity.
  - intros p cnt Hp (H1 & H2). destruct (divmod_pos p K nc Hp) as (_ & _ & E). rewrite E.
    assert (Hn := nodes_lt _ _ _ _ p M Hp).
    rewrite (get_ok nodes p 0) by lia. cbn [bind].
    rewrite (get_ok cnt _ 0) by lia. cbn [bind]. rewrite set_ok by lia.
    eexists. split; [reflexivity|]. rewrite upd_length. split; [exact H1|].
    intros n Hn'. rewrite nth_upd by lia. rewrite inc_S, app_length.
    destruct (Nat.eqb_spec n (nth p nodes 0)) as [Q|Q].
    + subst n. rewrite Nat.eqb_refl, H2 by lia. reflexivity.
    + destruct (Nat.eqb_spec (nth p nodes 0) n); [lia|]. rewrite H2 by lia. simpl. lia.
Qed.

Lemma starts_ok n cnt : length cnt = n ->
  exists st, build_starts n cnt = Ok st /\ length st = n + 1 /\
    forall i, i <= n -> nth i st 0 = nsum i (fun j => nth j cnt 0).
Proof.
  intros HL. unfold build_starts.
  edestruct (loop_inv (fun k st => length st = n + 1 /\ forall i, i <= k -> nth i st 0 = nsum i (fun j => nth j cnt 0)) n)
    as (st & E & H1 & H2).
  3: { exists st. split; [exact E|]. split; [exact H1|exact H2]. }
  - rewrite repeat_length. split; [reflexivity|]. intros i Hi. replace i with 0 by lia.
    rewrite nth_repeat. reflexivity.
  - intros k st Hk (H1 & H2).
    rewrite (get_ok st k 0) by lia. cbn [bind]. rewrite (get_ok cnt k 0) by lia. cbn [bind].
    rewrite set_ok by lia. eexists. split; [reflexivity|]. rewrite upd_length. split; [exact H1|].
    intros i Hi. rewrite nth_upd by lia. destruct (Nat.eqb_spec i (k + 1)) as [->|Q].
    + rewrite (H2 k) by lia. replace (k + 1) with (S k) by lia. reflexivity.
    + apply H2. lia.
Qed.

(** total number of incidences *)
Lemma inc_total nodes nn p : (forall q, q < p -> nth q nodes 0 < nn) ->
  nsum nn (fun n => length (inc nodes n p)) = p.
Proof.
  induction p as [|p IH]; intros H.
  - apply nsum_zero. reflexivity.
  - rewrite (nsum_ext nn _ (fun n => length (inc nodes n p) + (if nth p nodes 0 =? n then 1 else 0))).
    2: { intros i _. rewrite inc_S, app_length. destruct (nth p nodes 0 =? i); reflexivity. }
    rewrite nsum_plus, IH by (intros; apply H; lia).
    rewrite (nsum_single nn (nth p nodes 0)).
    + rewrite Nat.eqb_refl. lia.
    + apply H. lia.
    + intros i _ Q. destruct (Nat.eqb_spec (nth p nodes 0) i); [congruence|reflexivity].
Qed.

(** offsets: the CSR position of the j-th incidence of n *)
Definition off (nodes : list nat) (P n : nat) : nat := nsum n (fun j => length (inc nodes j P)).

Lemma off_bound nodes P nn n j : (forall q, q < P -> nth q nodes 0 < nn) -> n < nn ->
  j < length (inc nodes n P) -> off nodes P n + j < P.
Proof.
  intros H Hn Hj.
  assert (nsum (S n) (fun k => length (inc nodes k P)) <= nsum nn (fun k => length (inc nodes k P))) by (apply nsum_mono; lia).
  rewrite (inc_total nodes nn P H) in H0. cbn [nsum] in H0. unfold off. lia.
Qed.

Lemma off_disjoint nodes P n n' j j' : j < length (inc nodes n P) -> j' < length (inc nodes n' P) ->
  off nodes P n + j = off nodes P n' + j' -> n = n' /\ j = j'.
Proof.
  intros Hj Hj' E.
  assert (G : forall a b, a < b -> off nodes P a + length (inc nodes a P) <= off nodes P b).
  { intros a b L. assert (Q := nsum_mono (S a) b (fun k => length (inc nodes k P)) L). cbn [nsum] in Q. exact Q. }
  destruct (Nat.lt_total n n') as [L|[L|L]].
  - specialize (G n n' L). lia.
  - subst. split; [reflexivity|lia].
  - specialize (G n' n L). lia.
Qed.

Lemma inc_len_mono nodes n p P : p <= P -> length (inc nodes n p) <= length (inc nodes n P).
Proof. apply poss_len_mono. Qed.

(** prefix stability: entries of inc at p are kept at larger p *)
Lemma inc_prefix nodes n p P j : p <= P -> j < length (inc nodes n p) ->
  nth j (inc nodes n P) 0 = nth j (inc nodes n p) 0.
Proof.
  intros H Hj. induction H; [reflexivity|]. rewrite inc_S, app_nth1; [exact IHle|].
  assert (Q := inc_len_mono nodes n p m H). lia.
Qed.

(** the state of a CSR fill after p pairs *)
Definition fill_inv (nodes : list nat) (nn P size p : nat) (value : nat -> nat)
  (lst : list (option nat)) (saved : list nat) : Prop :=
  length lst = size /\ length saved = nn /\
  (forall n, n < nn -> nth n saved 0 = length (inc nodes n p)) /\
  (forall n j, n < nn -> j < length (inc nodes n p) ->
     nth (off nodes P n + j) lst None = Some (value (nth j (inc nodes n p) 0))).

Lemma fill_inv_0 nodes nn P size value : fill_inv nodes nn P size 0 value (alloc size) (repeat 0 nn).
Proof.
  unfold fill_inv, alloc. rewrite !repeat_length. split; [reflexivity|]. split; [reflexivity|]. split.
  - intros n Hn. rewrite nth_repeat. reflexivity.
  - intros n j _ Hj. simpl in Hj. lia.
Qed.

Lemma fill_inv_step nodes nn P p value lst saved :
  (forall q, q < P -> nth q nodes 0 < nn) -> p < P ->
  fill_inv nodes nn P P p value lst saved ->
  let n := nth p nodes 0 in
  get saved n = Ok (length (inc nodes n p)) /\
  n < nn /\ off nodes P n + length (inc nodes n p) < length lst /\
  fill_inv nodes nn P P (S p) value (upd lst (off nodes P n + length (inc nodes n p)) (Some (value p)))
           (upd saved n (length (inc nodes n p) + 1)).
Proof.
  intros Hlt Hp (H1 & H2 & H3 & H4) n.
  assert (Hn : n < nn) by (apply Hlt; exact Hp).
  assert (Hc : length (inc nodes n p) < length (inc nodes n P)).
  { assert (Q := inc_len_mono nodes n (S p) P Hp). rewrite inc_S, app_length in Q.
    unfold n in Q. rewrite Nat.eqb_refl in Q. simpl in Q. unfold n. lia. }
  assert (Hb := off_bound nodes P nn n _ Hlt Hn Hc).
  split; [rewrite (get_ok saved n 0) by lia; rewrite H3 by exact Hn; reflexivity|].
  split; [exact Hn|]. split; [lia|].
  unfold fill_inv. rewrite !upd_length. split; [exact H1|]. split; [exact H2|]. split.
  - intros n' Hn'. rewrite nth_upd by lia. rewrite inc_S, app_length.
    destruct (Nat.eqb_spec n' n) as [->|Q].
    + fold n. rewrite Nat.eqb_refl. reflexivity.
    + destruct (Nat.eqb_spec (nth p nodes 0) n') as [Q'|Q']; [exfalso; apply Q; symmetry; exact Q'|].
      rewrite H3 by exact Hn'. simpl. lia.
  - intros n' j Hn' Hj.
    assert (HjP : j < length (inc nodes n' P)) by (assert (Q := inc_len_mono nodes n' (S p) P Hp); lia).
    rewrite nth_upd by lia.
    destruct (Nat.eqb_spec (off nodes P n' + j) (off nodes P n + length (inc nodes n p))) as [Q|Q].
    + apply off_disjoint in Q; [|exact HjP|exact Hc]. destruct Q as (-> & ->).
      rewrite inc_S. fold n. rewrite Nat.eqb_refl, app_nth2, Nat.sub_diag by lia. reflexivity.
    + assert (Hj2 : j < length (inc nodes n' p)).
      { rewrite inc_S, app_length in Hj. destruct (Nat.eqb_spec (nth p nodes 0) n') as [Q'|Q'].
        - simpl in Hj. destruct (Nat.eq_dec j (length (inc nodes n' p))) as [Ej|Ej]; [|lia].
          exfalso. apply Q. unfold n. rewrite Q', Ej. reflexivity.
        - simpl in Hj. lia. }
      rewrite (H4 n' j Hn' Hj2), inc_S, app_nth1 by exact Hj2. reflexivity.
Qed.

Lemma starts_off K nc nn nodes cnt st : mesh_ok K nc nn nodes -> length cnt = nn ->
  (forall n, n < nn -> nth n cnt 0 = length (inc nodes n (nc * K))) ->
  length st = nn + 1 -> (forall i, i <= nn -> nth i st 0 = nsum i (fun j => nth j cnt 0)) ->
  forall n, n <= nn -> nth n st 0 = off nodes (nc * K) n.
Proof.
  intros M L1 C L2 S n Hn. rewrite S by exact Hn. apply nsum_ext. intros i Hi. apply C. lia.
Qed.

Lemma fill_ok K nc nn nodes st value : mesh_ok K nc nn nodes -> length st = nn + 1 ->
  (forall n, n <= nn -> nth n st 0 = off nodes (nc * K) n) ->
  exists lst saved, fill_incidences K nc nn nodes st (nc * K) value = Ok (lst, saved) /\
    fill_inv nodes nn (nc * K) (nc * K) (nc * K) (fun p => value (p / K) (p mod K)) lst saved.
Proof.
  intros M L S. unfold fill_incidences.
  rewrite (loop_nested nc K (fun c l '(lst, saved) =>
      do n <- get nodes (c * K + l); do s <- get st n; do k <- get saved n;
      do lst' <- set lst (s + k) (Some (value c l)); do saved' <- set saved n (k + 1); Ok (lst', saved'))).
  edestruct (loop_inv (fun p s => fill_inv nodes nn (nc * K) (nc * K) p (fun p => value (p / K) (p mod K)) (fst s) (snd s)) (nc * K))
    as ((lst & saved) & E & H).
  3: { exists lst, saved. split; [exact E|exact H]. }
  - apply fill_inv_0.
  - intros p (lst & saved) Hp H. cbn [fst snd] in H. destruct (divmod_pos p K nc Hp) as (_ & _ & E). rewrite E.
    rewrite (get_ok nodes p 0) by (rewrite (proj1 M); lia). cbn [bind].
    destruct (fill_inv_step nodes nn (nc * K) p _ lst saved (fun q Hq => nodes_lt _ _ _ _ q M Hq) Hp H)
      as (G1 & Hn & Hb & H').
    rewrite (get_ok st _ 0) by lia. cbn [bind]. rewrite G1. cbn [bind].
    rewrite S by lia. rewrite set_ok by exact Hb. cbn [bind].
    rewrite set_ok by (rewrite (proj1 (proj2 H)); exact Hn). cbn [bind].
    eexists. split; [reflexivity|]. exact H'.
Qed.

Lemma node_cell_ok K nc nn nodes : mesh_ok K nc nn nodes ->
  exists m, build_node_cell K nc nn nodes = Ok m /\
    length (nc_start m) = nn + 1 /\ (forall n, n <= nn -> nth n (nc_start m) 0 = off nodes (nc * K) n) /\
    forall n, n < nn -> num_cells_in_node m n = Ok (length (inc nodes n (nc * K))) /\
      forall j, j < length (inc nodes n (nc * K)) ->
        cells_in_node m n j = Ok (nth j (inc nodes n (nc * K)) 0 / K).
Proof.
  intros M. unfold build_node_cell.
  destruct (count_ok K nc nn nodes M) as (cnt & E1 & L1 & C1). rewrite E1. cbn [bind].
  destruct (starts_ok nn cnt L1) as (st & E2 & L2 & C2). rewrite E2. cbn [bind].
  assert (S := starts_off K nc nn nodes cnt st M L1 C1 L2 C2).
  destruct (fill_ok K nc nn nodes st (fun c _ => c) M L2 S) as (lst & saved & E3 & F). rewrite E3. cbn [bind].
  eexists. split; [reflexivity|]. cbn [nc_start]. split; [exact L2|]. split; [exact S|].
  intros n Hn. unfold num_cells_in_node, cells_in_node. cbn [nc_num nc_start nc_list]. split.
  - rewrite (get_ok cnt n 0) by lia. rewrite C1 by exact Hn. reflexivity.
  - intros j Hj. rewrite (get_ok st n 0) by lia. cbn [bind]. rewrite S by lia.
    destruct F as (F1 & F2 & F3 & F4). unfold getu.
    assert (B := off_bound nodes (nc * K) nn n j (fun q Hq => nodes_lt _ _ _ _ q M Hq) Hn Hj).
    rewrite (nth_error_nth' lst None) by lia. rewrite F4 by assumption. reflexivity.
Qed.

(** ---- from positions to cells ---- *)
Lemma Sorted_map_div K l : Sorted lt l -> Sorted le (map (fun q => q / K) l).
Proof.
  induction 1 as [|a l HS IH HH]; simpl; constructor; [exact IH|].
  destruct HH; simpl; constructor. destruct (Nat.eq_dec K 0) as [->|HK]; [simpl; lia|].
  apply Nat.div_le_mono; lia.
Qed.
Lemma Sorted_seq s n : Sorted lt (seq s n).
Proof.
  revert s. induction n as [|n IH]; intros s; simpl; constructor; [apply IH|].
  destruct n; simpl; constructor. lia.
Qed.
Lemma poss_sorted n p : Sorted lt (poss n p).
Proof.
  unfold poss. apply StronglySorted_Sorted.
  assert (G : StronglySorted lt (seq 0 n)).
  { apply Sorted_StronglySorted; [intros x y z; lia|apply Sorted_seq]. }
  induction G as [|a l Hs IH HF]; simpl; [constructor|].
  destruct (p a); [|exact IH]. constructor; [exact IH|].
  rewrite Forall_forall in *. intros x Hx. apply filter_In in Hx. apply HF. tauto.
Qed.

Lemma count_occ_app_n (l1 l2 : list nat) c :
  count_occ Nat.eq_dec (l1 ++ l2) c = count_occ Nat.eq_dec l1 c + count_occ Nat.eq_dec l2 c.
Proof. apply count_occ_app. Qed.

(** cells of node n over the first c cells *)
Lemma inc_block nodes n K c :
  map (fun q => q / K) (inc nodes n (S c * K)) =
  map (fun q => q / K) (inc nodes n (c * K)) ++
  repeat c (length (poss K (fun l => nth (c * K + l) nodes 0 =? n))).
Proof.
  destruct (Nat.eq_dec K 0) as [->|HK]; [rewrite !Nat.mul_0_r; reflexivity|].
  assert (G : forall k, k <= K ->
    map (fun q => q / K) (inc nodes n (c * K + k)) =
    map (fun q => q / K) (inc nodes n (c * K)) ++ repeat c (length (poss k (fun l => nth (c * K + l) nodes 0 =? n)))).
  { induction k as [|k IH]; intros Hk.
    - rewrite Nat.add_0_r, app_nil_r. reflexivity.
    - replace (c * K + S k) with (S (c * K + k)) by lia. rewrite inc_S, map_app, IH, poss_S by lia.
      rewrite app_length, repeat_app, <- app_assoc. f_equal. f_equal.
      destruct (nth (c * K + k) nodes 0 =? n); [|reflexivity]. simpl.
      rewrite Nat.add_comm, Nat.div_add, Nat.div_small by lia. reflexivity. }
  replace (S c * K) with (c * K + K) by lia. apply G. lia.
Qed.

Lemma mult_poss K nc nn nodes c n : mesh_ok K nc nn nodes -> c < nc ->
  mult K nodes c n = length (poss K (fun l => nth (c * K + l) nodes 0 =? n)).
Proof.
  intros M Hc. unfold mult. fold (poss K (fun l => match nth_error nodes (c * K + l) with Some x => Nat.eqb x n | None => false end)).
  f_equal. apply poss_ext. intros l Hl. rewrite (nth_error_nth' nodes 0); [reflexivity|].
  rewrite (proj1 M). assert (S c * K <= nc * K) by (apply Nat.mul_le_mono_r; lia). simpl in H. lia.
Qed.

Lemma cells_count K nc nn nodes n c : mesh_ok K nc nn nodes ->
  count_occ Nat.eq_dec (map (fun q => q / K) (inc nodes n (nc * K))) c =
  if c <? nc then mult K nodes c n else 0.
Proof.
  intros M.
  assert (G : forall k, k <= nc -> count_occ Nat.eq_dec (map (fun q => q / K) (inc nodes n (k * K))) c =
                if c <? k then mult K nodes c n else 0).
  { induction k as [|k IH]; intros Hk; [reflexivity|].
    rewrite inc_block, count_occ_app_n, IH by lia.
    rewrite <- (mult_poss K nc nn nodes k n M) by lia.
    destruct (Nat.eq_dec c k) as [->|Q].
    - rewrite count_occ_repeat_eq by reflexivity.
      destruct (Nat.ltb_spec k k); [lia|]. destruct (Nat.ltb_spec k (S k)); lia.
    - rewrite count_occ_repeat_neq by congruence.
      destruct (Nat.ltb_spec c k); destruct (Nat.ltb_spec c (S k)); lia. }
  apply G. lia.
Qed.

Lemma map_nth0 K l j : j < length l -> nth j (map (fun q => q / K) l) 0 = nth j l 0 / K.
Proof.
  intros H. rewrite (nth_indep _ 0 (0 / K)) by (rewrite map_length; exact H). apply (map_nth (fun q => q / K)).
Qed.

Lemma node_cell_spec K nc nn nodes : mesh_ok K nc nn nodes ->
  exists m, build_node_cell K nc nn nodes = Ok m /\
    forall n, n < nn -> exists L,
      num_cells_in_node m n = Ok (length L) /\
      (forall j, j < length L -> cells_in_node m n j = Ok (nth j L 0)) /\
      Sorted le L /\
      (forall c, count_occ Nat.eq_dec L c = if c <? nc then mult K nodes c n else 0).
Proof.
  intros M. destruct (node_cell_ok K nc nn nodes M) as (m & E & _ & _ & H). exists m. split; [exact E|].
  intros n Hn. destruct (H n Hn) as (H1 & H2).
  exists (map (fun q => q / K) (inc nodes n (nc * K))). rewrite map_length. split; [exact H1|]. split.
  - intros j Hj. rewrite map_nth0 by exact Hj. apply H2; exact Hj.
  - split; [apply Sorted_map_div, poss_sorted|]. intros c. apply (cells_count K nc nn nodes n c M).
Qed.

(** any out-of-range node id makes the builder fail *)
Lemma count_oob K nc nn nodes : length nodes = nc * K -> Exists (fun n => nn <= n) nodes ->
  build_node_cell K nc nn nodes = Err OOB.
Proof.
  intros HL HE. unfold build_node_cell.
  enough (E : count_incidences K nc nn nodes = Err OOB) by (rewrite E; reflexivity).
  unfold count_incidences.
  rewrite (loop_nested nc K (fun c l cnt => do n <- get nodes (c * K + l); do v <- get cnt n; set cnt n (v + 1))).
  apply Exists_exists in HE. destruct HE as (x & Hx & Hge).
  apply (In_nth nodes x 0) in Hx. destruct Hx as (p & Hp & Ep).
  unfold loop.
  assert (G : forall m lo cnt, lo <= p -> p < lo + m -> lo + m <= nc * K -> length cnt = nn ->
     loop_from lo m (fun p cnt => do n <- get nodes (p / K * K + p mod K); do v <- get cnt n; set cnt n (v + 1)) cnt = Err OOB).
  { induction m as [|m IH]; intros lo cnt H1 H2 H3 H4; [lia|]. cbn [loop_from].
    destruct (divmod_pos lo K nc ltac:(lia)) as (_ & _ & E). rewrite E.
    rewrite (get_ok nodes lo 0) by lia. cbn [bind].
    destruct (Nat.lt_ge_cases (nth lo nodes 0) nn) as [L|L].
    - rewrite (get_ok cnt _ 0) by lia. cbn [bind]. rewrite set_ok by lia. cbn [bind].
      destruct (Nat.eq_dec lo p) as [->|Q]; [lia|]. apply IH; try lia. rewrite upd_length. exact H4.
    - rewrite get_oob by lia. reflexivity. }
  apply G; try lia. apply repeat_length.
Qed.

(** ---- corners ---- *)
Lemma corner_ok K nc nn nodes m : mesh_ok K nc nn nodes -> build_node_cell K nc nn nodes = Ok m ->
  exists c, build_corner K nc nn nodes m = Ok c /\ co_total c = nc * K /\
    (forall cell l, cell < nc -> l < K -> corners_in_cell c K cell l = Ok (cell * K + l)) /\
    forall n, n < nn -> num_corners_in_node c n = Ok (length (inc nodes n (nc * K))) /\
      forall j, j < length (inc nodes n (nc * K)) ->
        corners_in_node c n j = Ok (nth j (inc nodes n (nc * K)) 0).
Proof.
  intros M Em. destruct (node_cell_ok K nc nn nodes M) as (m' & E' & L & S & _).
  rewrite Em in E'. inversion E'; subst m'. clear E'.
  unfold build_corner.
  rewrite (loop_nested nc K (fun c l '((lst, saved), incell, gid) =>
        do n <- get nodes (c * K + l); do s <- get (nc_start m) n; do k <- get saved n;
        do saved' <- set saved n (k + 1); do lst' <- set lst (s + k) (Some gid);
        do incell' <- set incell (c * K + l) (Some gid); Ok ((lst', saved'), incell', gid + 1))).
  edestruct (loop_inv (fun p s => let '((lst, saved), incell, gid) := s in
      fill_inv nodes nn (nc * K) (nc * K) p (fun q => q) lst saved /\ gid = p /\
      length incell = nc * K /\ forall q, q < p -> nth q incell None = Some q) (nc * K))
    as ((((lst & saved) & incell) & gid) & E & F & G1 & G2 & G3).
  3: { rewrite E. cbn [bind]. eexists. split; [reflexivity|]. cbn [co_total]. split; [exact G1|].
       destruct F as (F1 & F2 & F3 & F4). split.
       - intros cell l Hc Hl. unfold corners_in_cell, getu. cbn [co_in_cell].
         assert (cell * K + l < nc * K) by (assert (Datatypes.S cell * K <= nc * K) by (apply Nat.mul_le_mono_r; lia); simpl in *; lia).
         rewrite (nth_error_nth' incell None) by lia. rewrite G3 by lia. reflexivity.
       - intros n Hn. unfold num_corners_in_node, corners_in_node. cbn [co_num co_start co_list]. split.
         + rewrite (get_ok saved n 0) by lia. rewrite F3 by exact Hn. reflexivity.
         + intros j Hj. rewrite (get_ok (nc_start m) n 0) by lia. cbn [bind]. rewrite S by lia. unfold getu.
           assert (B := off_bound nodes (nc * K) nn n j (fun q Hq => nodes_lt _ _ _ _ q M Hq) Hn Hj).
           rewrite (nth_error_nth' lst None) by lia. rewrite F4 by assumption. reflexivity. }
  - split; [apply fill_inv_0|]. split; [reflexivity|]. split; [apply repeat_length|]. intros; lia.
  - intros p (((lst & saved) & incell) & gid) Hp (F & G1 & G2 & G3).
    destruct (divmod_pos p K nc Hp) as (_ & _ & E). rewrite E.
    rewrite (get_ok nodes p 0) by (rewrite (proj1 M); lia). cbn [bind].
    destruct (fill_inv_step nodes nn (nc * K) p _ lst saved (fun q Hq => nodes_lt _ _ _ _ q M Hq) Hp F)
      as (Q1 & Hn & Hb & H').
    rewrite (get_ok (nc_start m) _ 0) by lia. cbn [bind]. rewrite Q1. cbn [bind].
    rewrite set_ok by (rewrite (proj1 (proj2 F)); exact Hn). cbn [bind].
    rewrite S by lia. rewrite set_ok by exact Hb. cbn [bind].
    rewrite set_ok by lia. cbn [bind]. subst gid.
    eexists. split; [reflexivity|]. cbv beta iota. split; [exact H'|]. split; [lia|].
    rewrite upd_length. split; [exact G2|]. intros q Hq. rewrite nth_upd by lia.
    destruct (Nat.eqb_spec q p) as [->|Q]; [reflexivity|]. apply G3. lia.
Qed.

Lemma corner_spec K nc nn nodes m : mesh_ok K nc nn nodes -> build_node_cell K nc nn nodes = Ok m ->
  exists c, build_corner K nc nn nodes m = Ok c /\ co_total c = nc * K /\
    (forall cell l, cell < nc -> l < K -> corners_in_cell c K cell l = Ok (cell * K + l)) /\
    forall n, n < nn -> exists L,
      num_corners_in_node c n = Ok (length L) /\
      (forall j, j < length L -> corners_in_node c n j = Ok (nth j L 0)) /\
      Sorted lt L /\
      (forall k, In k L <-> exists cell l, cell < nc /\ k = cell * K + l /\ has_node K nodes cell l n).
Proof.
  intros M Em. destruct (corner_ok K nc nn nodes m M Em) as (c & E & T & H1 & H2).
  exists c. split; [exact E|]. split; [exact T|]. split; [exact H1|].
  intros n Hn. destruct (H2 n Hn) as (A1 & A2). exists (inc nodes n (nc * K)).
  split; [exact A1|]. split; [exact A2|]. split; [apply poss_sorted|].
  intros k. unfold inc. rewrite poss_In, Nat.eqb_eq. split.
  - intros (Hk & Ek). destruct (divmod_pos k K nc Hk) as (B1 & B2 & B3).
    exists (k / K), (k mod K). split; [exact B1|]. split; [lia|]. split; [exact B2|].
    rewrite B3, (nth_error_nth' nodes 0) by (rewrite (proj1 M); exact Hk). rewrite Ek. reflexivity.
  - intros (cell & l & Hc & -> & Hl & He). assert (cell * K + l < nc * K).
    { assert (Datatypes.S cell * K <= nc * K) by (apply Nat.mul_le_mono_r; lia). simpl in *. lia. }
    split; [assumption|]. apply nth_error_nth. exact He.
Qed.
