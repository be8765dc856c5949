(** build_connectivity on a mesh given by its arrays. *)
From Coq Require Import Reals List Arith ZArith Lra Lia Sorted Bool.
Import ListNotations.
Require Import Verif.Base Verif.NatSum Verif.RBase Verif.RSum Verif.Spec_Conn Verif.Model_Conn Verif.Proof_Conn Verif.Proof_Neigh Verif.Proof_Elem
  Verif.Spec_Patch Verif.Proof_Patch Verif.Proof_Bdy Verif.Prop_Patch Verif.Model_Geom Verif.Proof_Geom Verif.Proof_Tri Verif.Proof_Blas
  Verif.Model_Full Verif.Spec_Full Verif.Proof_Full Verif.Model_Patch.
Local Open Scope nat_scope.

(** the flat list of F c l, K per item *)
Definition flatten (K n : nat) (F : nat -> nat -> nat) : list nat := map (fun q => F (q / K) (q mod K)) (seq 0 (n * K)).
Lemma flatten_len K n F : length (flatten K n F) = n * K.
Proof. unfold flatten. rewrite map_length, seq_length. reflexivity. Qed.
Lemma flatten_at K n F c l : c < n -> l < K -> nth_error (flatten K n F) (c * K + l) = Some (F c l).
Proof.
  intros Hc Hl. unfold flatten. assert (B : c * K + l < n * K) by nia. rewrite nth_error_map, nth_error_nth' with (d := 0) by (rewrite seq_length; exact B).
  rewrite seq_nth by exact B. cbn [option_map Nat.add]. rewrite Nat.div_add_l, Nat.div_small by lia. rewrite (Nat.add_comm (c * K)), Nat.mod_add, Nat.mod_small by lia. rewrite Nat.add_0_r. reflexivity.
Qed.
Lemma flatten_mesh K n nn F : (forall c l, c < n -> l < K -> F c l < nn) -> mesh_ok K n nn (flatten K n F).
Proof.
  intros H. split; [apply flatten_len|]. apply Forall_forall. intros x I. unfold flatten in I. apply in_map_iff in I. destruct I as (q & <- & I). apply in_seq in I.
  destruct K as [|K]; [lia|]. apply H; [apply Nat.div_lt_upper_bound; lia|apply Nat.mod_upper_bound; lia].
Qed.
Lemma flatten_mult K n F c x : c < n -> mult K (flatten K n F) c x = times K F c x.
Proof.
  intros Hc. unfold mult, times. f_equal. apply filter_ext_in. intros l I. apply in_seq in I. rewrite flatten_at by lia. reflexivity.
Qed.
Lemma flatten_has K n F c l x : c < n -> (has_node K (flatten K n F) c l x <-> l < K /\ F c l = x).
Proof.
  intros Hc. unfold has_node. split.
  - intros (Hl & E). rewrite flatten_at in E by lia. injection E as E. auto.
  - intros (Hl & E). split; [exact Hl|]. rewrite flatten_at by lia. congruence.
Qed.
Lemma flatten_share K n F c c' : c < n -> c' < n -> (share_node K (flatten K n F) c c' <-> touch K F c c').
Proof.
  intros Hc Hc'. split.
  - intros (l & l' & x & A & B). apply flatten_has in A; [|exact Hc]. apply flatten_has in B; [|exact Hc']. exists l, l'. destruct A, B. repeat split; congruence || assumption.
  - intros (l & l' & Hl & Hl' & E). exists l, l', (F c l). split; apply flatten_has; auto.
Qed.

Lemma read_all_ok n l (f : nat -> nat) : (forall q, q < n -> getu l q = Ok (f q)) -> read_all n l = Ok (map f (seq 0 n)).
Proof.
  intros H. unfold read_all. edestruct (loop_inv (fun k acc => acc = map f (seq 0 k)) n) as (s & E & Hs).
  3:{ rewrite E, Hs. reflexivity. }
  - reflexivity.
  - intros q acc Hq ->. cbn beta. rewrite H by exact Hq. cbn [bind]. eexists. split; [reflexivity|]. rewrite seq_S, map_app. reflexivity.
Qed.
Lemma read_flat K n l F : (forall c p, c < n -> p < K -> getu l (c * K + p) = Ok (F c p)) -> read_all (n * K) l = Ok (flatten K n F).
Proof.
  intros H. apply read_all_ok. intros q Hq. destruct K as [|K]; [lia|]. rewrite (Nat.div_mod q (S K)) at 1 by lia. rewrite (Nat.mul_comm (S K)). apply H; [apply Nat.div_lt_upper_bound; lia|apply Nat.mod_upper_bound; lia].
Qed.

(** * side centres *)
Lemma side_table s k : s < 6 -> k < 4 -> exists l, get patch_node_table (k + s * 4) = Ok l /\ l < 8.
Proof. intros Hs Hk. do 6 (destruct s as [|s]; [do 4 (destruct k as [|k]; [eexists; split; [reflexivity|lia]|]); lia|]). lia. Qed.

Lemma side_on s k : s < 6 -> k < 4 -> exists l, get patch_node_table (k + s * 4) = Ok l /\ on_side s l.
Proof. intros Hs Hk. do 6 (destruct s as [|s]; [do 4 (destruct k as [|k]; [eexists; split; [reflexivity|split; [lia|reflexivity]]|]); lia|]). lia. Qed.
Lemma table_corner s k : s < 6 -> k < 4 -> get patch_node_table (k + s * 4) = Ok (side_corner s k).
Proof. intros Hs Hk. do 6 (destruct s as [|s]; [do 4 (destruct k as [|k]; [reflexivity|]); lia|]). lia. Qed.
Lemma side_corner_lt s k : s < 6 -> k < 4 -> side_corner s k < 8.
Proof. intros Hs Hk. do 6 (destruct s as [|s]; [do 4 (destruct k as [|k]; [cbn; lia|]); lia|]). lia. Qed.
Lemma on_side_table s l : s < 6 -> on_side s l -> exists k, k < 4 /\ get patch_node_table (k + s * 4) = Ok l.
Proof.
  intros Hs (Hl & E). do 6 (destruct s as [|s]; [do 8 (destruct l as [|l]; [first [discriminate E | (exists 0; split; [lia|reflexivity]) | (exists 1; split; [lia|reflexivity]) | (exists 2; split; [lia|reflexivity]) | (exists 3; split; [lia|reflexivity])]|]); lia|]). lia.
Qed.

Lemma side_centre_ok m N X c s : cdescribes m N X -> c < cm_cells m -> s < 6 ->
  exists cen, side_centre m (flatten 8 (cm_cells m) N) c s = Ok cen /\ forall d, d < 3 -> cen d = face_centre N X c s d.
Proof.
  intros (HN & HX) Hc Hs. unfold side_centre.
  set (L := fun k => match get patch_node_table (k + s * 4) with Ok l => l | Err _ => 0 end).
  assert (HL : forall k, k < 4 -> node_in_patch_in_cell (flatten 8 (cm_cells m) N) c s k = Ok (N c (L k)) /\ L k < 8).
  { intros k Hk. destruct (side_table s k Hs Hk) as (l & E & Hl). unfold node_in_patch_in_cell, L. rewrite E. cbn [bind]. split; [|exact Hl]. unfold get. rewrite flatten_at by assumption. reflexivity. }
  edestruct (loop_inv (fun n (a : nat -> R) => forall d, d < 3 -> a d = (rsum n (fun k => X (N c (L k)) d) / 4)%R) 4) as (a & E & Ha).
  3:{ exists a. split; [exact E|]. intros d Hd. rewrite Ha by exact Hd. unfold face_centre, side_mean, L. clear -Hs. 
      do 6 (destruct s as [|s]; [cbn; lra|]). exfalso; lia. }
  - intros d Hd. cbn. lra.
  - intros k a Hk Ha. destruct (HL k Hk) as (-> & Hl). cbn [bind].
    destruct (HN c (L k) Hc Hl) as (_ & Hn).
    edestruct (loop_inv (fun n (b : nat -> R) => forall d, d < 3 -> b d = if d <? n then (a d + X (N c (L k)) d / 4)%R else a d) 3) as (b & Eb & Hb).
    3:{ exists b. split; [exact Eb|]. intros d Hd. rewrite Hb by exact Hd. destruct (Nat.ltb_spec d 3); [|lia]. cbn [rsum]. rewrite Ha by exact Hd. lra. }
    + intros; reflexivity.
    + intros i b Hi Hb. cbn beta. rewrite HX by assumption. cbn [bind]. eexists. split; [reflexivity|]. intros d Hd. unfold fset. destruct (Nat.eqb_spec d i) as [->|].
      * rewrite Hb by exact Hd. destruct (Nat.ltb_spec i i), (Nat.ltb_spec i (S i)); try lia. reflexivity.
      * rewrite Hb by exact Hd. destruct (Nat.ltb_spec d i), (Nat.ltb_spec d (S i)); try lia; reflexivity.
Qed.

(** * face keys *)
Lemma patch_key_nonneg delta mn mx c k : (0 < delta)%R -> (forall d, d < 3 -> (mn d <= mx d)%R) -> patch_key delta mn mx c = Ok k -> (0 <= k)%Z.
Proof.
  intros Hd Hb. rewrite patch_key_eq by exact Hd. intros E. injection E as <-. apply trunc_nonneg. unfold flat.
  assert (A := qi_pos delta mn c 0). assert (B := qi_pos delta mn c 1). assert (C := qi_pos delta mn c 2).
  assert (Nb : forall d, d < 3 -> (0 <= nb delta mn mx d)%R).
  { intros d Hd'. unfold nb. specialize (Hb d Hd'). assert (P := inv_pow_pos 12). apply Rmult_le_pos; [lra|]. left. apply Rinv_0_lt_compat. exact Hd. }
  assert (N0 := Nb 0 ltac:(lia)). assert (N1 := Nb 1 ltac:(lia)).
  assert (0 <= qi delta mn c 1 * nb delta mn mx 0)%R by (apply Rmult_le_pos; lra).
  assert (0 <= qi delta mn c 2 * nb delta mn mx 0 * nb delta mn mx 1)%R by (apply Rmult_le_pos; [apply Rmult_le_pos|]; lra). lra.
Qed.

Lemma face_keys_ok m N X d nc : cdescribes m N X -> cm_cells m = S nc -> corner_spacing N X nc d -> (0 < d <= 10 ^ 64)%R ->
  exists ks mx mn, face_keys m (flatten 8 (cm_cells m) N) = Ok ks /\ length ks = S nc * 6 /\
    (forall n i, n < cm_nodes m -> i < 3 -> (mn i <= X n i <= mx i)%R) /\
    forall c s, c < S nc -> s < 6 -> patch_key (d / 3) mn mx (face_centre N X c s) = Ok (Z.of_nat (nth (c * 6 + s) ks 0)).
Proof.
  intros HM Ec HL Hd. unfold face_keys.
  destruct (mesh_box_ok (10 ^ 64) m N X HM) as (mx & mn & -> & Hb & _ & _). cbn [bind].
  rewrite (last_dist_spec _ m N X nc d HM Ec HL).
  2:{ intros v Hv. exists 0, 1. split; [lia|]. split; [lia|]. split; [lia|]. lra. }
  cbn [bind]. cbv zeta. rewrite Rmin_right by apply Hd.
  assert (Hdd : (0 < d / 3)%R) by lra.
  assert (Hmm : forall i, i < 3 -> (mn i <= mx i)%R).
  { intros i Hi. destruct HM as (HN & _). destruct (HN 0 0 ltac:(lia) ltac:(lia)) as (_ & B). specialize (Hb _ i B Hi). lra. }
  rewrite Ec.
  edestruct (loop_inv (fun n (ks : list nat) => length ks = n * 6 /\ forall c s, c < n -> s < 6 -> patch_key (d / 3) mn mx (face_centre N X c s) = Ok (Z.of_nat (nth (c * 6 + s) ks 0))) (S nc)) as (ks & E & L & H).
  3:{ exists ks, mx, mn. split; [exact E|]. auto. }
  - split; [reflexivity|intros; lia].
  - intros c ks Hc (L & H). cbn beta.
    edestruct (loop_inv (fun n (ks : list nat) => length ks = c * 6 + n /\ forall c' s, s < 6 -> c' * 6 + s < c * 6 + n -> patch_key (d / 3) mn mx (face_centre N X c' s) = Ok (Z.of_nat (nth (c' * 6 + s) ks 0))) 6) as (ks' & E' & L' & H').
    3:{ exists ks'. split; [exact E'|]. split; [lia|]. intros c' s Hc' Hs. apply H'; lia. }
    + split; [lia|]. intros c' s Hs B. apply H; lia.
    + intros s ks' Hs (L' & H'). cbn beta. rewrite <- Ec. destruct (side_centre_ok m N X c s HM ltac:(lia) Hs) as (cen & -> & Hcen). cbn [bind].
      rewrite (patch_key_ext (d / 3) mn mx cen (face_centre N X c s)) by exact Hcen.
      assert (K := patch_key_eq (d / 3) mn mx Hdd (face_centre N X c s)). rewrite K. cbn [bind].
      assert (P := patch_key_nonneg _ _ _ _ _ Hdd Hmm K). destruct (Z.ltb_spec (trunc (flat (d / 3) mn mx (face_centre N X c s))) 0); [lia|].
      eexists. split; [reflexivity|]. rewrite app_length. split; [cbn [length]; lia|]. intros c' s' Hs' B.
      destruct (Nat.eq_dec (c' * 6 + s') (c * 6 + s)) as [Q|Q].
      * assert (c' = c) by lia. subst c'. assert (s' = s) by lia. subst s'. rewrite app_nth2 by lia. rewrite L', Nat.sub_diag. cbn [nth]. rewrite Z2Nat.id by exact P. exact K.
      * rewrite app_nth1 by lia. apply H'; [exact Hs'|lia].
Qed.

Lemma last_cons_eq (y : nat) rest q0 : last (y :: rest) q0 = last rest y.
Proof. revert y q0. induction rest as [|z rest IH]; intros y q0; [reflexivity|]. change (last (y :: z :: rest) q0) with (last (z :: rest) q0). rewrite !IH. reflexivity. Qed.
Lemma last_default (y : nat) rest a b : last (y :: rest) a = last (y :: rest) b.
Proof. rewrite !last_cons_eq. reflexivity. Qed.

(** * the whole *)
Theorem build_connectivity_ok G ne gauss m N X GN d nc : cdescribes m N X -> cm_cells m = S nc -> corner_spacing N X nc d -> (0 < d <= 10 ^ 64)%R ->
  (forall e l, e < ne -> l < G -> getu gauss (e * G + l) = Ok (GN e l) /\ GN e l < cm_nodes m) -> ne <= S nc ->
  (exists c c', c < S nc /\ c' < S nc /\ c <> c' /\ touch 8 N c c') ->
  exists C pt mx mn, build_connectivity G ne gauss m = Ok C /\
    (forall n i, n < cm_nodes m -> i < 3 -> (mn i <= X n i <= mx i)%R) /\
    around_nodes (cn_node_cells C) (cm_nodes m) (S nc) 8 N /\
    corners_right (cn_corners C) (cm_nodes m) (S nc) N /\
    neighbours_right (num_cells_in_cell (cn_cell_cells C)) (cells_in_cell (cn_cell_cells C)) (S nc) 8 N /\
    patches_right (cn_patches C) (S nc) N pt /\
    (forall c s c' s', c < S nc -> s < 6 -> c' < S nc -> s' < 6 ->
       (pt c s = pt c' s' <-> patch_key (d / 3) mn mx (face_centre N X c s) = patch_key (d / 3) mn mx (face_centre N X c' s'))) /\
    around_nodes (cn_node_elems C) (cm_nodes m) ne G GN /\
    (forall e l, e < ne -> l < G -> getu (cn_nodes_in_elem C) (e * G + l) = Ok (GN e l)) /\
    neighbours_right (num_elems_in_elem (cn_elem_elems C)) (elems_in_elem (cn_elem_elems C)) ne G GN.
Proof.
  intros HM Ec HL Hd HG Hne HS. unfold build_connectivity. cbv zeta.
  assert (HN := proj1 HM). rewrite Ec.
  rewrite (read_flat 8 (S nc) (cm_conn m) N) by (intros c l Hc Hl; apply (HN c l); lia). cbn [bind].
  set (nodes := flatten 8 (S nc) N).
  assert (Mok : mesh_ok 8 (S nc) (cm_nodes m) nodes) by (apply flatten_mesh; intros c l Hc Hl; apply (HN c l); lia).
  destruct (node_cell_spec _ _ _ _ Mok) as (a & Ea & Ha). rewrite Ea. cbn [bind].
  destruct (corner_spec _ _ _ _ a Mok Ea) as (b & Eb & Eb' & Hb1 & Hb2). rewrite Eb. cbn [bind].
  destruct (cell_cell_ok _ _ _ _ a Mok Ea) as (cc & Ecc & Hcc).
  { destruct HS as (c & c' & Hc & Hc' & Ne & T). exists c, c'. repeat (split; [assumption|]). apply flatten_share; assumption. }
  rewrite Ecc. cbn [bind].
  destruct (face_keys_ok m N X d nc HM Ec HL Hd) as (ks & mx & mn & Ek & Lk & Hbox & Hk). rewrite Ec in Ek. fold nodes in Ek. rewrite Ek. cbn [bind].
  destruct (patch_spec _ _ ks nodes Lk Mok) as (P & EP & P1 & P2 & P3 & P4 & P5). rewrite EP. cbn [bind].
  destruct (bdy_spec _ _ ks nodes P Lk Mok EP) as (B & EB & B1 & B2 & B3).
  rewrite (read_flat G ne gauss GN) by (intros e l He Hl; apply (HG e l He Hl)). cbn [bind]. set (gn := flatten G ne GN).
  assert (Gok : mesh_ok G ne (cm_nodes m) gn) by (apply flatten_mesh; intros e l He Hl; apply (HG e l He Hl)).
  destruct (elem_node_ok _ _ _ _ Gok) as (en & Een & Een'). rewrite Een. cbn [bind].
  destruct (elem_elem_spec _ _ _ _ en (S nc) Gok Een' Hne) as (ee & Eee & Hee). rewrite Eee. cbn [bind].
  set (pt := fun c s => match patches_in_cell P c s with Ok z => Z.to_nat z | Err _ => 0 end).
  assert (Hpt : forall c s, c < S nc -> s < 6 -> patches_in_cell P c s = Ok (Z.of_nat (pt c s)) /\ pt c s < pt_num P).
  { intros c s Hc Hs. destruct (P2 c s Hc Hs) as (_ & q & Hq & E). unfold pt. rewrite E, Nat2Z.id. auto. }
  assert (Hpk : forall c s c' s', c < S nc -> s < 6 -> c' < S nc -> s' < 6 -> (pt c s = pt c' s' <-> nth (c * 6 + s) ks 0 = nth (c' * 6 + s') ks 0)).
  { intros c s c' s' Hc Hs Hc' Hs'. rewrite <- P3 by assumption. destruct (Hpt c s Hc Hs) as (-> & _). destruct (Hpt c' s' Hc' Hs') as (-> & _). split; [intros ->; reflexivity|]. intros E. injection E as E. lia. }
  eexists _, pt, mx, mn. split; [reflexivity|]. cbn [cn_node_cells cn_corners cn_cell_cells cn_patches cn_node_elems cn_nodes_in_elem cn_elem_elems].
  split; [exact Hbox|]. split; [|split; [|split; [|split; [|split; [|split; [|split]]]]]].
  - intros n Hn. destruct (Ha n Hn) as (L & A1 & A2 & A3 & A4). exists L. split; [split; assumption|]. split; [exact A3|]. intros c. rewrite A4. destruct (Nat.ltb_spec c (S nc)); [|reflexivity]. apply flatten_mult. assumption.
  - split; [exact Hb1|]. intros n Hn. destruct (Hb2 n Hn) as (L & A1 & A2 & A3 & A4). exists L. split; [split; assumption|]. split; [exact A3|]. intros k. rewrite A4. split.
    + intros (c & l & Hc & -> & T). apply flatten_has in T; [|exact Hc]. exists c, l. destruct T. auto.
    + intros (c & l & Hc & Hl & -> & T). exists c, l. split; [exact Hc|]. split; [reflexivity|]. apply flatten_has; auto.
  - intros c Hc. destruct (Hcc c Hc) as (L & A1 & A2 & A3 & A4). exists L. split; [split; assumption|]. split; [exact A3|]. intros c'. rewrite A4. split.
    + intros (H1 & H2 & T). split; [exact H1|]. split; [exact H2|]. apply flatten_share in T; assumption.
    + intros (H1 & H2 & T). split; [exact H1|]. split; [exact H2|]. apply flatten_share; assumption.
  - split; [exact P1|]. split; [intros c s Hc Hs; destruct (P2 c s Hc Hs) as (A & _); destruct (Hpt c s Hc Hs); auto|]. split.
    + intros q Hq. destruct (P5 q Hq) as (q0 & rest & A1 & A2 & A3 & A4 & A5 & A6 & A7).
      assert (IS : forall x, In x (q0 :: rest) <-> x < S nc * 6 /\ nth x ks 0 = nth q0 ks 0).
      { intros x. rewrite <- A2. unfold sides_with_key. rewrite filter_In, in_seq, Nat.eqb_eq, Lk. intuition lia. }
      set (q1 := last rest q0).
      assert (Iq1 : In q1 (q0 :: rest)).
      { unfold q1. destruct rest as [|r rest]; [left; reflexivity|]. right. clear. revert r. induction rest as [|y rest IH]; intros r; [left; reflexivity|]. right. apply (IH y). }
      assert (Bd0 := proj1 (IS q0) (or_introl eq_refl)). assert (Bd1 := proj1 (IS q1) Iq1).
      assert (St : StronglySorted lt (q0 :: rest)).
      { rewrite <- A2. unfold sides_with_key. apply Sorted_StronglySorted; [intros x y z; lia|]. exact (poss_sorted (length ks) (fun q => Nat.eqb (nth q ks 0) (nth q0 ks 0))). }
      assert (Rg : forall x, In x (q0 :: rest) -> q0 <= x <= q1).
      { intros x I. split; [destruct I as [->|I]; [lia|]; inversion St as [|? ? S1 S2]; rewrite Forall_forall in S2; specialize (S2 x I); lia|].
        unfold q1. clear -St I. revert x q0 St I. induction rest as [|y rest IH]; intros x q0 St I; [destruct I as [->|[]]; cbn; lia|]. inversion St as [|? ? S1 S2]; subst.
        rewrite last_cons_eq. destruct I as [->|I].
        - assert (F := proj1 (Forall_forall _ _) S2 y (or_introl eq_refl)). specialize (IH y y S1 (or_introl eq_refl)). lia.
        - apply IH; assumption. }
      destruct (divmod_pos q0 6 (S nc) (proj1 Bd0)) as (D1 & D2 & D3). destruct (divmod_pos q1 6 (S nc) (proj1 Bd1)) as (D4 & D5 & D6).
      assert (Eq0 : pt (q0 / 6) (q0 mod 6) = q). { destruct (Hpt _ _ D1 D2) as (E & _). apply Nat2Z.inj. congruence. }
      assert (Eq1 : pt (q1 / 6) (q1 mod 6) = q). { rewrite <- Eq0. apply Hpk; try assumption. rewrite D3, D6. apply Bd1. }
      exists (q0 / 6), (q0 mod 6), (q1 / 6), (q1 mod 6). repeat (split; [assumption|]). rewrite D3, D6.
      assert (E1 : (if Nat.eqb q0 q1 then (-1)%Z else Z.of_nat (q1 / 6)) = match rest with [] => (-1)%Z | _ => Z.of_nat (last rest 0 / 6) end /\
                   (if Nat.eqb q0 q1 then (-1)%Z else Z.of_nat q1) = match rest with [] => (-1)%Z | _ => Z.of_nat (last rest 0) end).
      { destruct rest as [|r rest]; [unfold q1; cbn [last]; rewrite Nat.eqb_refl; auto|].
        assert (q0 < r) by (inversion St as [|? ? S1 S2]; subst; exact (proj1 (Forall_forall _ _) S2 r (or_introl eq_refl))).
        assert (Q := Rg r (or_intror (or_introl eq_refl))). destruct (Nat.eqb_spec q0 q1); [lia|]. unfold q1. rewrite (last_default r rest q0 0). auto. }
      split.
      { intros x t Hx Ht Ep. apply Rg. apply IS. split; [lia|]. rewrite <- D3. apply Hpk; try assumption. congruence. }
      destruct E1 as (-> & ->). repeat (split; [assumption|]).
      intros k Hk'. destruct (A7 k Hk') as (n' & E' & ->). unfold node_in_patch_in_cell in E'. rewrite (table_corner _ _ D2 Hk') in E'. cbn [bind] in E'.
      unfold get, nodes in E'. rewrite flatten_at in E' by (try assumption; apply side_corner_lt; assumption). injection E' as <-. reflexivity.
    + exists B. split; [exact EB|]. split; [exact B1|]. split; [intros q I; apply B2 in I; apply I|]. intros c s Hc Hs. destruct (Hpt c s Hc Hs) as (Epc & _). split.
      * intros I c' s' Hc' Hs' E. apply (proj1 (B3 c s Hc Hs)); [exists (pt c s); auto|assumption|assumption|]. apply Hpk; assumption.
      * intros H. destruct (proj2 (B3 c s Hc Hs)) as (q & E & I); [|rewrite Epc in E; injection E as E; apply Nat2Z.inj in E; rewrite E; exact I].
        intros c' s' Hc' Hs' E. apply H; [assumption|assumption|]. apply Hpk; assumption.
  - intros c s c' s' Hc Hs Hc' Hs'. rewrite Hpk, !Hk by assumption. split; [intros ->; reflexivity|]. intros E. injection E as E. lia.
  - destruct (node_cell_spec _ _ _ _ Gok) as (en' & E' & Hen). rewrite Een' in E'. injection E' as <-.
    intros n Hn. destruct (Hen n Hn) as (L & A1 & A2 & A3 & A4). exists L. split; [split; assumption|]. split; [exact A3|]. intros c. rewrite A4. destruct (Nat.ltb_spec c ne); [|reflexivity]. apply flatten_mult. assumption.
  - intros e l He Hl. unfold getu, get. rewrite nth_error_map. unfold gn. rewrite flatten_at by assumption. reflexivity.
  - intros c Hc. destruct (Hee c Hc) as (L & A1 & A2 & A3 & A4). exists L. split; [split; assumption|]. split; [exact A3|]. intros c'. rewrite A4. split.
    + intros (H1 & H2 & T). split; [exact H1|]. split; [exact H2|]. apply flatten_share in T; assumption.
    + intros (H1 & H2 & T). split; [exact H1|]. split; [exact H2|]. apply flatten_share; assumption.
Qed.
