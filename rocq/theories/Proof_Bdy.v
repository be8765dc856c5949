(** Reader-facing patch statement, boundary patches and boundary sets. *)
From Coq Require Import List Arith ZArith Lia Bool Sorted.
Import ListNotations.
Require Import Verif.Base Verif.NatSum Verif.Model_Conn Verif.Spec_Conn Verif.Proof_Conn Verif.Proof_Neigh
  Verif.Model_Patch Verif.Spec_Patch Verif.Proof_Patch.

Lemma side_pos nc c s : c < nc -> s < 6 -> c * 6 + s < nc * 6 /\ (c * 6 + s) / 6 = c /\ (c * 6 + s) mod 6 = s.
Proof.
  intros Hc Hs. split; [lia|]. rewrite (Nat.add_comm (c * 6)).
  rewrite Nat.div_add, Nat.mod_add, Nat.div_small, Nat.mod_small by lia. auto.
Qed.

Lemma own_keys keys n p q0 : length keys = n -> q0 < n -> pid keys n q0 = p ->
  poss n (fun q' => pid keys n q' =? p) = sides_with_key keys (nth q0 keys 0).
Proof.
  intros Hn Hq Hp. unfold sides_with_key. rewrite Hn. unfold poss. apply filter_ext_in.
  intros q Hin. apply in_seq in Hin. subst p.
  destruct (Nat.eqb_spec (pid keys n q) (pid keys n q0)) as [E|E].
  - apply (pid_eq keys n q q0) in E; [|lia|lia]. unfold key in E. rewrite E, Nat.eqb_refl. reflexivity.
  - destruct (Nat.eqb_spec (nth q keys 0) (nth q0 keys 0)) as [E'|E']; [|reflexivity].
    exfalso. apply E. apply (pid_eq keys n q q0); [lia|lia|exact E'].
Qed.

Lemma patch_spec nc nn keys nodes : length keys = nc * 6 -> mesh_ok 8 nc nn nodes ->
  exists m, build_patches nc keys nodes = Ok m /\ pt_nsides m = nc * 6 /\
    (forall c s, c < nc -> s < 6 -> sides_in_cell m c s = Ok (c * 6 + s) /\
       exists p, p < pt_num m /\ patches_in_cell m c s = Ok (Z.of_nat p)) /\
    (forall c s c' s', c < nc -> s < 6 -> c' < nc -> s' < 6 ->
       (patches_in_cell m c s = patches_in_cell m c' s' <-> nth (c * 6 + s) keys 0 = nth (c' * 6 + s') keys 0)) /\
    (forall c s, c < nc -> s < 6 -> first_with_key keys (c * 6 + s) = true ->
       patches_in_cell m c s = Ok (Z.of_nat (firsts_before keys (c * 6 + s)))) /\
    (forall p, p < pt_num m -> exists q0 rest,
       patches_in_cell m (q0 / 6) (q0 mod 6) = Ok (Z.of_nat p) /\
       sides_with_key keys (nth q0 keys 0) = q0 :: rest /\
       cells_in_patch m p 0 = Ok (Z.of_nat (q0 / 6)) /\
       sides_in_patch m p 0 = Ok (Z.of_nat q0) /\
       cells_in_patch m p 1 = Ok (match rest with [] => (-1)%Z | _ => Z.of_nat (last rest 0 / 6) end) /\
       sides_in_patch m p 1 = Ok (match rest with [] => (-1)%Z | _ => Z.of_nat (last rest 0) end) /\
       forall k, k < 4 -> exists n, node_in_patch_in_cell nodes (q0 / 6) (q0 mod 6) k = Ok n /\
         node_in_patch m p k = Ok (Z.of_nat n)).
Proof.
  intros Lk M. destruct (build_patches_ok keys nodes nc nn Lk M) as (m & E & En & HS).
  exists m. split; [exact E|]. destruct HS as (L1 & L2 & L3 & L4 & L5 & L6 & H & Hc).
  split; [exact L6|].
  assert (Hpic : forall c s, c < nc -> s < 6 -> patches_in_cell m c s = Ok (Z.of_nat (pid keys (nc * 6) (c * 6 + s)))).
  { intros c s Hcc Hs. destruct (side_pos nc c s Hcc Hs) as (B & _ & _). unfold patches_in_cell, getu.
    rewrite (nth_error_nth' _ None) by lia. rewrite (proj1 (Hc _ B)). reflexivity. }
  split; [|split; [|split]].
  - intros c s Hcc Hs. destruct (side_pos nc c s Hcc Hs) as (B & _ & _). split.
    + unfold sides_in_cell, getu. rewrite (nth_error_nth' _ None) by lia. rewrite (proj2 (Hc _ B)). reflexivity.
    + exists (pid keys (nc * 6) (c * 6 + s)). rewrite En. split; [apply pid_lt; exact B|]. apply Hpic; assumption.
  - intros c s c' s' H1 H2 H3 H4. rewrite !Hpic by assumption.
    destruct (side_pos nc c s H1 H2) as (B & _ & _). destruct (side_pos nc c' s' H3 H4) as (B' & _ & _).
    rewrite <- (pid_eq keys (nc * 6) _ _ B B'). split; [|intros ->; reflexivity].
    intros Q. injection Q as Q. lia.
  - intros c s H1 H2 F. rewrite Hpic by assumption. destruct (side_pos nc c s H1 H2) as (B & _ & _).
    rewrite (pid_first keys (nc * 6) Lk _ B F). reflexivity.
  - intros p Hp. rewrite En in Hp. destruct (H p Hp) as (C1 & C2 & C3 & C4 & C5).
    destruct (pid_surj keys (nc * 6) p Hp) as (q & Hq & Eq).
    assert (Ne : In q (own keys nc (nc * 6) p)).
    { unfold own. apply poss_In. split; [exact Hq|]. apply Nat.eqb_eq. exact Eq. }
    destruct (own keys nc (nc * 6) p) as [|q0 rest] eqn:Eo; [destruct Ne|].
    assert (I0 : In q0 (own keys nc (nc * 6) p)) by (rewrite Eo; left; reflexivity).
    unfold own in I0. apply poss_In in I0. destruct I0 as (Hq0 & E0). apply Nat.eqb_eq in E0.
    destruct (divmod_pos q0 6 nc Hq0) as (B1 & B2 & B3).
    exists q0, rest. split; [rewrite Hpic, B3, E0 by assumption; reflexivity|].
    split; [rewrite <- (own_keys keys (nc * 6) p q0 Lk Hq0 E0); exact Eo|].
    unfold cells_in_patch, sides_in_patch, node_in_patch. cbn [ohd] in *.
    rewrite !(get_ok _ _ (-1)%Z) by lia. rewrite !Nat.add_0_r. rewrite C1, C2, C3, C4.
    split; [reflexivity|]. split; [reflexivity|]. split; [destruct rest; reflexivity|].
    split; [destruct rest; reflexivity|].
    intros k Hk. exists (pnode nodes (q0 / 6) (q0 mod 6) k).
    rewrite (node_in_patch_ok nc nn nodes _ _ _ M B1 B2 Hk). split; [reflexivity|].
    rewrite (get_ok _ _ (-1)%Z) by lia. rewrite C5 by exact Hk. reflexivity.
Qed.

(** ---- boundary patches ---- *)
Lemma bdy_ok P cells : length cells = 2 * P -> (forall p, p < P -> nth (p * 2) cells 0%Z <> (-1)%Z) ->
  build_bdy_patches P cells = Ok (map Some (poss P (fun p => Z.eqb (nth (p * 2 + 1) cells 0%Z) (-1)))).
Proof.
  intros L Hf. set (t := fun p => Z.eqb (nth (p * 2 + 1) cells 0%Z) (-1)). unfold build_bdy_patches.
  edestruct (loop_inv (fun k n => n = length (poss k t)) P) as (n & E & Hn).
  3: { rewrite E. cbn [bind]. subst n. clear E.
    edestruct (loop_inv (fun k st => length (fst st) = length (poss P t) /\ snd st = length (poss k t) /\
        forall i, i < length (poss k t) -> nth i (fst st) None = Some (nth i (poss k t) 0)) P) as ((lst & n) & E & H1 & H2 & H3).
    3: { rewrite E. cbn [bind fst snd] in *. f_equal.
         apply nth_ext with (d := None) (d' := Some 0); [rewrite map_length; exact H1|].
         intros i Hi. rewrite map_nth. apply H3. lia. }
    - cbn [fst snd]. rewrite repeat_length. split; [reflexivity|]. split; [reflexivity|]. intros i Hi. simpl in Hi. lia.
    - intros p (lst & n) Hp (H1 & H2 & H3). cbn [fst snd] in *. unfold loop. cbn [loop_from].
      rewrite (get_ok cells (p * 2 + 0) 0%Z) by lia. cbn [bind]. rewrite Nat.add_0_r.
      destruct (Z.eqb_spec (nth (p * 2) cells 0%Z) (-1)) as [Q|Q]; [exfalso; apply (Hf p Hp Q)|]. cbn [bind].
      rewrite (get_ok cells (p * 2 + 1) 0%Z) by lia. cbn [bind]. fold (t p). rewrite poss_S.
      destruct (t p) eqn:Et.
      + assert (Hl : length (poss p t) < length (poss P t)).
        { assert (Q2 := poss_len_mono (S p) P t Hp). rewrite poss_S, Et, app_length in Q2. simpl in Q2. lia. }
        rewrite set_ok by lia. cbn [bind]. eexists. split; [reflexivity|]. cbn [fst snd].
        rewrite upd_length, app_length. cbn [length]. split; [exact H1|]. split; [lia|].
        intros i Hi. rewrite nth_upd by lia. destruct (Nat.eqb_spec i n) as [->|Ne].
        * rewrite H2, app_nth2, Nat.sub_diag by lia. reflexivity.
        * rewrite app_nth1 by lia. apply H3. lia.
      + cbn [bind]. rewrite app_nil_r. eexists. split; [reflexivity|]. cbn [fst snd]. auto. }
  - reflexivity.
  - intros p n Hp ->. unfold loop. cbn [loop_from].
    rewrite (get_ok cells (p * 2 + 0) 0%Z) by lia. cbn [bind]. rewrite Nat.add_0_r.
    destruct (Z.eqb_spec (nth (p * 2) cells 0%Z) (-1)) as [Q|Q]; [exfalso; apply (Hf p Hp Q)|].
    rewrite (get_ok cells (p * 2 + 1) 0%Z) by lia. cbn [bind]. fold (t p).
    eexists. split; [reflexivity|]. rewrite poss_S, app_length. destruct (t p); simpl; lia.
Qed.

Lemma bdy_spec nc nn keys nodes m : length keys = nc * 6 -> mesh_ok 8 nc nn nodes ->
  build_patches nc keys nodes = Ok m ->
  exists B, build_bdy_patches (pt_num m) (pt_cells m) = Ok (map Some B) /\ Sorted lt B /\
    (forall p, In p B <-> p < pt_num m /\ cells_in_patch m p 1 = Ok (-1)%Z) /\
    (forall c s, c < nc -> s < 6 ->
       ((exists p, patches_in_cell m c s = Ok (Z.of_nat p) /\ In p B) <->
        forall c' s', c' < nc -> s' < 6 -> nth (c' * 6 + s') keys 0 = nth (c * 6 + s) keys 0 -> c' = c /\ s' = s)).
Proof.
  intros Lk M E. destruct (patch_spec nc nn keys nodes Lk M) as (m' & E' & _ & S1 & S2 & S3 & S4).
  rewrite E in E'. inversion E'; subst m'. clear E'.
  assert (Lc : length (pt_cells m) = 2 * pt_num m).
  { destruct (build_patches_ok keys nodes nc nn Lk M) as (m' & E' & En & HS). rewrite E in E'. inversion E'; subst m'.
    rewrite En. exact (proj1 HS). }
  exists (poss (pt_num m) (fun p => Z.eqb (nth (p * 2 + 1) (pt_cells m) 0%Z) (-1))). split.
  { apply bdy_ok; [exact Lc|]. intros p Hp. destruct (S4 p Hp) as (q0 & rest & _ & _ & C & _).
    unfold cells_in_patch in C. rewrite (get_ok _ _ 0%Z) in C by lia. rewrite Nat.add_0_r in C. injection C as C. rewrite C. lia. }
  split; [apply poss_sorted|].
  assert (HB : forall p, In p (poss (pt_num m) (fun p => Z.eqb (nth (p * 2 + 1) (pt_cells m) 0%Z) (-1))) <->
     p < pt_num m /\ cells_in_patch m p 1 = Ok (-1)%Z).
  { intros p. rewrite poss_In. split; intros (H1 & H2); split; auto.
    - apply Z.eqb_eq in H2. unfold cells_in_patch. rewrite (get_ok _ _ 0%Z) by lia. rewrite H2. reflexivity.
    - apply Z.eqb_eq. unfold cells_in_patch in H2. rewrite (get_ok _ _ 0%Z) in H2 by lia. injection H2 as H2. exact H2. }
  split; [exact HB|].
  intros c s Hc Hs. destruct (S1 c s Hc Hs) as (_ & p & Hp & Ep).
  destruct (side_pos nc c s Hc Hs) as (B0 & _ & _).
  destruct (S4 p Hp) as (q0 & rest & A1 & A2 & A3 & A4 & A5 & _).
  assert (Hq0 : q0 < nc * 6).
  { assert (I : In q0 (sides_with_key keys (nth q0 keys 0))) by (rewrite A2; left; reflexivity).
    unfold sides_with_key in I. apply filter_In in I. destruct I as (I & _). apply in_seq in I. lia. }
  destruct (divmod_pos q0 6 nc Hq0) as (D1 & D2 & D3).
  assert (Ek : nth (c * 6 + s) keys 0 = nth q0 keys 0).
  { rewrite <- D3. apply (S2 c s _ _ Hc Hs D1 D2). rewrite Ep, A1. reflexivity. }
  assert (Hin : forall q, q < nc * 6 -> (In q (q0 :: rest) <-> nth q keys 0 = nth q0 keys 0)).
  { intros q Hq. rewrite <- A2. unfold sides_with_key. rewrite filter_In, in_seq, Nat.eqb_eq. intuition lia. }
  split.
  - intros (p' & Ep' & I) c' s' Hc' Hs' Ekk. rewrite Ep in Ep'. injection Ep' as Ep'. apply Nat2Z.inj in Ep'. subst p'.
    apply HB in I. destruct I as (_ & I). rewrite I in A5. destruct rest as [|r rest].
    + destruct (side_pos nc c' s' Hc' Hs') as (B1 & F1 & F2).
      assert (J : In (c' * 6 + s') [q0]) by (apply (Hin _ B1); congruence).
      assert (J' : In (c * 6 + s) [q0]) by (apply (Hin _ B0); congruence).
      destruct J as [J|[]]. destruct J' as [J'|[]]. lia.
    + injection A5 as A5. lia.
  - intros U. exists p. split; [exact Ep|]. apply HB. split; [exact Hp|].
    destruct rest as [|r rest]; [exact A5|]. exfalso.
    assert (Nd : NoDup (q0 :: r :: rest)) by (rewrite <- A2; apply NoDup_filter, seq_NoDup).
    assert (Sd : forall q, In q (q0 :: r :: rest) -> q = c * 6 + s).
    { intros q I. assert (Hq : q < nc * 6).
      { rewrite <- A2 in I. unfold sides_with_key in I. apply filter_In in I. destruct I as (I & _). apply in_seq in I. lia. }
      assert (Eq := proj1 (Hin q Hq) I). destruct (divmod_pos q 6 nc Hq) as (F1 & F2 & F3).
      destruct (U (q / 6) (q mod 6) F1 F2) as (U1 & U2); [rewrite F3; congruence|]. lia. }
    assert (q0 = r) by (rewrite (Sd q0), (Sd r) by (simpl; auto); reflexivity). subst r.
    inversion Nd as [|? ? Nn]. apply Nn. left. reflexivity.
Qed.

(** ---- boundary sets ---- *)
Lemma tag_iter bdy (pr : nat -> bool) start : forall lst counter,
  start + counter + length (filter pr bdy) <= length lst ->
  exists lst', iter bdy (fun p '(lst, counter) => do on <- Ok (pr p);
      if (on : bool) then do lst' <- set lst (start + counter) (Some p); Ok (lst', counter + 1) else Ok (lst, counter)) (lst, counter)
    = Ok (lst', counter + length (filter pr bdy)) /\ length lst' = length lst /\
    (forall j, j < length (filter pr bdy) -> nth (start + counter + j) lst' None = Some (nth j (filter pr bdy) 0)) /\
    (forall i, i < start + counter -> nth i lst' None = nth i lst None).
Proof.
  induction bdy as [|x bdy IH]; intros lst counter H; cbn [iter filter].
  - exists lst. rewrite Nat.add_0_r. repeat split; auto. intros j Hj. simpl in Hj. lia.
  - cbn [bind]. cbn [filter] in H. destruct (pr x).
    + cbn [length] in H. rewrite set_ok by lia. cbn [bind].
      destruct (IH (upd lst (start + counter) (Some x)) (counter + 1)) as (lst' & E & H1 & H2 & H3).
      { rewrite upd_length. lia. }
      exists lst'. cbn [bind] in E. rewrite E. cbn [length]. rewrite upd_length in H1. split; [f_equal; f_equal; lia|]. split; [exact H1|]. split.
      * intros [|j] Hj.
        -- rewrite Nat.add_0_r, H3 by lia. rewrite nth_upd_eq by lia. reflexivity.
        -- replace (start + counter + S j) with (start + (counter + 1) + j) by lia. rewrite H2 by lia. reflexivity.
      * intros i Hi. rewrite H3 by lia. apply nth_upd_neq. lia.
    + destruct (IH lst counter H) as (lst' & E & H1 & H2 & H3). cbn [bind] in E. exists lst'. auto.
Qed.

Section Sets.
  Variables (S : nat) (bdy : list nat) (pr : nat -> nat -> bool).
  Hypothesis HS : 0 < S.
  Definition sel (i : nat) : list nat := filter (pr i) bdy.
  Definition slen (i : nat) : nat := length (sel i).
  Lemma slen_le i : slen i <= length bdy.
  Proof. unfold slen, sel. induction bdy as [|x t IH]; simpl; [lia|]. destruct (pr i x); simpl; lia. Qed.
  Lemma ssum_le k : nsum k slen <= k * length bdy.
  Proof. induction k as [|k IH]; simpl; [lia|]. assert (Q := slen_le k). lia. Qed.

  Definition tagged (k : nat) (b : bdy_sets) : Prop :=
    bs_n b = S /\ length (bs_num b) = S /\ length (bs_start b) = S + 1 /\ length (bs_list b) = S * length bdy /\
    (forall j, 0 < j -> j <= k -> nth j (bs_start b) None = Some (nsum j slen)) /\
    (0 < k -> nth 0 (bs_start b) None = Some 0) /\
    (forall i, i < k -> nth i (bs_num b) None = Some (slen i)) /\
    (forall i j, i < k -> j < slen i -> nth (nsum i slen + j) (bs_list b) None = Some (nth j (sel i) 0)).

  Lemma tagged_0 : tagged 0 (init_bdy_sets S (length bdy)).
  Proof.
    unfold tagged, init_bdy_sets. destruct (Nat.eqb_spec S 0); [lia|]. cbn [bs_n bs_num bs_start bs_list].
    rewrite !repeat_length. repeat (split; [reflexivity|]). repeat split; intros; lia.
  Qed.

  Lemma tag_step k b : k < S -> tagged k b ->
    exists b', tag_bdys bdy (fun p => Ok (pr k p)) k b = Ok b' /\ tagged (Datatypes.S k) b'.
  Proof.
    intros Hk (A1 & A2 & A3 & A4 & A5 & A6 & A7 & A8). unfold tag_bdys. rewrite A1.
    destruct (Nat.eqb_spec k S); [lia|]. rewrite set_ok by lia. cbn [bind].
    assert (St : getu (upd (bs_start b) 0 (Some 0)) k = Ok (nsum k slen)).
    { unfold getu. rewrite (nth_error_nth' _ None) by (rewrite upd_length; lia). rewrite nth_upd by lia.
      destruct (Nat.eqb_spec k 0) as [->|Ne]; [reflexivity|]. rewrite A5 by lia. reflexivity. }
    rewrite St. cbn [bind].
    destruct (tag_iter bdy (pr k) (nsum k slen) (bs_list b) 0) as (lst' & E & H1 & H2 & H3).
    { fold (sel k) (slen k). assert (Q := ssum_le (Datatypes.S k)). cbn [nsum] in Q.
      assert (Datatypes.S k * length bdy <= S * length bdy) by (apply Nat.mul_le_mono_r; lia). simpl in *. lia. }
    fold (sel k) in *. fold (slen k) in *. cbn [bind] in E. rewrite E. cbn [bind]. rewrite set_ok by lia. cbn [bind].
    rewrite set_ok by (rewrite upd_length; lia). cbn [bind].
    eexists. split; [reflexivity|]. unfold tagged. cbn [bs_n bs_num bs_start bs_list]. rewrite !upd_length.
    split; [first [exact A1 | reflexivity]|]. split; [exact A2|]. split; [exact A3|]. split; [lia|]. split; [|split; [|split]].
    - intros j Hj1 Hj2. rewrite nth_upd by (rewrite upd_length; lia). destruct (Nat.eqb_spec j (k + 1)) as [->|Ne].
      + rewrite Nat.add_1_r. cbn [nsum]. f_equal.
      + rewrite nth_upd_neq by lia. apply A5; lia.
    - intros _. rewrite nth_upd_neq by lia. rewrite nth_upd_eq by lia. reflexivity.
    - intros i Hi. rewrite nth_upd by lia. destruct (Nat.eqb_spec i k) as [->|Ne]; [reflexivity|]. apply A7. lia.
    - intros i j Hi Hj. destruct (Nat.eq_dec i k) as [->|Ne].
      + rewrite <- H2 by exact Hj. f_equal. lia.
      + rewrite H3; [apply A8; [lia|exact Hj]|].
        assert (Q := nsum_mono (Datatypes.S i) k slen ltac:(lia)). cbn [nsum] in Q. lia.
  Qed.

  Lemma tag_all k : k <= S -> exists b,
    loop k (fun i b => tag_bdys bdy (fun p => Ok (pr i p)) i b) (init_bdy_sets S (length bdy)) = Ok b /\
    forall i, i < k -> num_bdy_patches_in_set b i = Ok (slen i) /\
      forall j, j < slen i -> bdy_patches_in_set b i j = Ok (nth j (sel i) 0).
  Proof.
    intros Hk. edestruct (loop_inv tagged k) as (b & E & A1 & A2 & A3 & A4 & A5 & A6 & A7 & A8).
    3: { exists b. split; [exact E|]. intros i Hi. unfold num_bdy_patches_in_set, bdy_patches_in_set, getu. split.
         - rewrite (nth_error_nth' _ None) by lia. rewrite A7 by exact Hi. reflexivity.
         - intros j Hj. rewrite (nth_error_nth' (bs_start b) None) by lia.
           assert (St : nth i (bs_start b) None = Some (nsum i slen)).
           { destruct i; [apply A6; lia|apply A5; lia]. }
           rewrite St. cbn [bind]. rewrite (nth_error_nth' (bs_list b) None).
           + rewrite A8 by assumption. reflexivity.
           + rewrite A4. assert (Q := ssum_le (Datatypes.S i)). cbn [nsum] in Q.
             assert (Datatypes.S i * length bdy <= S * length bdy) by (apply Nat.mul_le_mono_r; lia). simpl in *. lia. }
    - apply tagged_0.
    - intros i b Hi. apply tag_step. lia.
  Qed.

  Lemma tag_fresh_out_of_order chk i : 0 < i -> i <> S ->
    tag_bdys bdy chk i (init_bdy_sets S (length bdy)) = Err (if i <? S then Uninit else OOB).
  Proof.
    intros Hi Ne. unfold tag_bdys, init_bdy_sets. destruct (Nat.eqb_spec S 0); [lia|]. cbn [bs_n bs_num bs_start bs_list].
    destruct (Nat.eqb_spec i S); [contradiction|]. rewrite set_ok by (rewrite repeat_length; lia). cbn [bind].
    unfold getu. destruct (Nat.ltb_spec i S) as [L|L].
    - rewrite (nth_error_nth' _ None) by (rewrite upd_length, repeat_length; lia).
      rewrite nth_upd_neq, nth_repeat by lia. reflexivity.
    - replace (nth_error (upd (repeat None (S + 1)) 0 (Some 0)) i) with (@None (option nat)); [reflexivity|].
      symmetry. apply nth_error_None. rewrite upd_length, repeat_length. lia.
  Qed.

  Lemma tag_exit chk b : bs_n b = S -> tag_bdys bdy chk S b = Err Exited.
  Proof. intros E. unfold tag_bdys. rewrite E, Nat.eqb_refl. reflexivity. Qed.
End Sets.
