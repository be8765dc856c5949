(** build_connectivity with ints. *)
From Coq Require Import Reals List Arith ZArith Lra Lia Bool.
Import ListNotations.
Require Import Verif.Base Verif.NatSum Verif.RBase Verif.RSum Verif.Model_Geom Verif.Proof_Geom Verif.Model_Vtk Verif.Model_Refine Verif.Model_Conn Verif.Proof_Conn Verif.Spec_Conn Verif.Proof_Neigh Verif.Proof_Elem Verif.Proof_Patch Verif.Proof_Bdy Verif.Model_Ref
  Verif.Model_Full Verif.Model_Int Verif.Spec_Patch Verif.Spec_High Verif.Spec_Full Verif.Spec_Int Verif.Proof_Full Verif.Proof_Full2 Verif.Proof_Int Verif.Model_Patch.
Local Open Scope nat_scope.

(** * loops *)
Lemma loop_ok_step {A} n (f : nat -> A -> res A) s r i : loop n f s = Ok r -> i < n -> exists a b, f i a = Ok b.
Proof.
  unfold loop. intros H Hi. assert (G : forall n lo s, loop_from lo n f s = Ok r -> lo <= i < lo + n -> exists a b, f i a = Ok b).
  { clear. induction n as [|n IH]; intros lo s H Hi; [lia|]. cbn [loop_from] in H. destruct (f lo s) as [s'|] eqn:E; [|discriminate]. cbn [bind] in H.
    destruct (Nat.eq_dec lo i) as [->|]; [eauto|]. apply (IH (Datatypes.S lo) s' H). lia. }
  apply (G n 0 s H). lia.
Qed.
Lemma loop_ok_kept {A} n (f : nat -> list A -> res (list A)) s r i : loop n f s = Ok r -> (forall j a b x, f j a = Ok b -> In x a -> In x b) -> i < n ->
  (forall x, In x s -> In x r) /\ exists a b, f i a = Ok b /\ forall x, In x b -> In x r.
Proof.
  unfold loop. intros H Hk Hi. assert (G : forall n lo s, loop_from lo n f s = Ok r -> (forall x, In x s -> In x r) /\ (lo <= i < lo + n -> exists a b, f i a = Ok b /\ forall x, In x b -> In x r)).
  { clear -Hk. induction n as [|n IH]; intros lo s H; [injection H as ->; split; [auto|lia]|]. cbn [loop_from] in H. destruct (f lo s) as [s'|] eqn:E; [|discriminate]. cbn [bind] in H.
    destruct (IH _ _ H) as (I1 & I2). split; [intros x Hx; apply I1; eapply Hk; [exact E|exact Hx]|]. intros Hi.
    destruct (Nat.eq_dec lo i) as [->|]; [exists s, s'; split; [exact E|exact I1]|]. apply I2. lia. }
  destruct (G n 0 s H) as (G1 & G2). split; [exact G1|]. apply G2. lia.
Qed.
Lemma filter_le {A} (f : A -> bool) l : length (filter f l) <= length l.
Proof. induction l as [|x l IH]; [cbn; lia|]. cbn [filter]. destruct (f x); cbn [length]; lia. Qed.

(** * number of pairs *)
Lemma cellsOf_len K nc F v : length (cellsOf K nc (flatten K nc F) v) = uses K nc F v.
Proof.
  unfold cellsOf, uses, inc, poss. rewrite map_length. f_equal. apply filter_ext_in. intros q I. apply in_seq in I. f_equal.
  destruct K as [|K]; [lia|]. assert (E := Nat.div_mod q (S K) ltac:(lia)). rewrite (Nat.mul_comm (S K)) in E.
  rewrite E at 1. apply nth_error_nth. apply flatten_at; [apply Nat.div_lt_upper_bound; lia|apply Nat.mod_upper_bound; lia].
Qed.
Lemma pairs_le K nc nn F a V : (forall c l, c < nc -> l < K -> F c l < nn) -> build_node_cell K nc nn (flatten K nc F) = Ok a ->
  (forall v, v < nn -> uses K nc F v <= V) -> exists cnt t, count_pairs K nc (flatten K nc F) a = Ok (cnt, t) /\ t <= nc * (K * V).
Proof.
  intros HF Ea HV. assert (M : mesh_ok K nc nn (flatten K nc F)) by (apply flatten_mesh; exact HF).
  assert (G := node_cell_good _ _ _ _ _ M Ea). destruct (count_pairs_ok _ _ _ _ _ M G) as (cnt & E & _). exists cnt. eexists. split; [exact E|].
  apply Nat.le_trans with (nsum nc (fun _ => K * V)).
  - apply nsum_le. intros c Hc. unfold others. eapply Nat.le_trans; [apply filter_le|]. unfold cand.
    assert (Q : forall l, (forall x, In x l -> x < K) -> length (concat (map (fun l0 => cellsOf K nc (flatten K nc F) (nth (c * K + l0) (flatten K nc F) 0)) l)) <= length l * V).
    { induction l as [|x l IH]; intros Hl; [cbn; lia|]. cbn [map concat length]. rewrite app_length. rewrite cellsOf_len.
      assert (B := Hl x (or_introl eq_refl)). rewrite (nth_error_nth _ _ _ (flatten_at K nc F c x Hc B)). assert (HV' := HV _ (HF c x Hc B)). specialize (IH (fun y I => Hl y (or_intror I))). lia. }
    specialize (Q (seq 0 K)). rewrite seq_length in Q. apply Q. intros x I. apply in_seq in I. lia.
  - clear. induction nc; cbn [nsum]; lia.
Qed.

(** * face keys *)
Section Faces.
  Variables (delta : R) (mn mx : nat -> R).
  Hypotheses (Hd : (0 < delta <= 10 ^ 4)%R) (Hmm : forall d, d < 3 -> (mn d <= mx d)%R).

  Lemma qi_le c d (n : R) : (mn d <= c d <= mx d)%R -> ((mx d - mn d + / 10 ^ 12) / delta <= n)%R -> (0 <= qi delta mn c d <= n)%R.
  Proof.
    intros Hc Hn. split; [left; apply qi_pos|]. unfold qi. assert (P12 : (0 < / 10 ^ 12)%R) by (apply Rinv_0_lt_compat, pow_lt; lra).
    assert (Id : (0 < / delta)%R) by (apply Rinv_0_lt_compat; lra).
    apply Rmax_lub; eapply Rle_trans; try exact Hn.
    - apply Rle_trans with (/ 10 ^ 12 / delta)%R.
      + apply (Rmult_le_reg_r delta); [lra|]. replace (/ 10 ^ 12 / delta * delta)%R with (/ 10 ^ 12)%R by (field; lra).
        replace (/ 10 ^ 12)%R with (/ 10 ^ 16 * 10 ^ 4)%R by field. apply Rmult_le_compat_l; [left; apply Rinv_0_lt_compat, pow_lt; lra|]. lra.
      + unfold Rdiv. apply Rmult_le_compat_r; lra.
    - unfold Rdiv. apply Rmult_le_compat_r; lra.
  Qed.
  Lemma flat_le c (n0 n1 n2 : R) : (forall d, d < 3 -> (mn d <= c d <= mx d)%R) ->
    ((mx 0%nat - mn 0%nat + / 10 ^ 12) / delta <= n0)%R -> ((mx 1%nat - mn 1%nat + / 10 ^ 12) / delta <= n1)%R -> ((mx 2%nat - mn 2%nat + / 10 ^ 12) / delta <= n2)%R ->
    (0 <= flat delta mn mx c <= n0 + n1 * n0 + n2 * n0 * n1)%R.
  Proof.
    intros Hc H0 H1 H2. assert (Q0 := qi_le c 0 n0 (Hc 0 ltac:(lia)) H0). assert (Q1 := qi_le c 1 n1 (Hc 1 ltac:(lia)) H1). assert (Q2 := qi_le c 2 n2 (Hc 2 ltac:(lia)) H2).
    assert (P12 : (0 < / 10 ^ 12)%R) by (apply Rinv_0_lt_compat, pow_lt; lra). assert (Id : (0 < / delta)%R) by (apply Rinv_0_lt_compat; lra).
    assert (N0 : (0 <= nb delta mn mx 0 <= n0)%R) by (unfold nb; split; [apply Rmult_le_pos; [specialize (Hmm 0 ltac:(lia)); lra|lra]|exact H0]).
    assert (N1 : (0 <= nb delta mn mx 1 <= n1)%R) by (unfold nb; split; [apply Rmult_le_pos; [specialize (Hmm 1 ltac:(lia)); lra|lra]|exact H1]).
    unfold flat. set (q0 := qi delta mn c 0) in *. set (q1 := qi delta mn c 1) in *. set (q2 := qi delta mn c 2) in *. set (m0 := nb delta mn mx 0) in *. set (m1 := nb delta mn mx 1) in *.
    assert (0 <= q1 * m0 <= n1 * n0)%R by (split; [apply Rmult_le_pos|apply Rmult_le_compat]; lra).
    assert (0 <= q2 * m0 <= n2 * n0)%R by (split; [apply Rmult_le_pos|apply Rmult_le_compat]; lra).
    assert (0 <= q2 * m0 * m1 <= n2 * n0 * n1)%R by (split; [apply Rmult_le_pos|apply Rmult_le_compat]; lra). lra.
  Qed.
  Lemma flat_ge c (k0 k1 k2 : R) : (0 <= k0)%R -> (0 <= k1)%R -> (0 <= k2)%R ->
    (k0 * delta <= mx 0%nat - mn 0%nat)%R -> (k1 * delta <= mx 1%nat - mn 1%nat)%R -> (k2 * delta <= c 2%nat - mn 2%nat)%R -> (k0 * k1 * k2 <= flat delta mn mx c)%R.
  Proof.
    intros P0 P1 P2 H0 H1 H2. assert (P12 : (0 < / 10 ^ 12)%R) by (apply Rinv_0_lt_compat, pow_lt; lra). assert (Id : (0 < / delta)%R) by (apply Rinv_0_lt_compat; lra).
    assert (G : forall k x, (k * delta <= x)%R -> (k <= (x + / 10 ^ 12) / delta)%R).
    { intros k x H. apply (Rmult_le_reg_r delta); [lra|]. replace ((x + / 10 ^ 12) / delta * delta)%R with (x + / 10 ^ 12)%R by (field; lra). lra. }
    apply G in H0, H1, H2. unfold flat. assert (A0 := qi_pos delta mn c 0). assert (A1 := qi_pos delta mn c 1).
    assert (A2 : (k2 <= qi delta mn c 2)%R) by (unfold qi; eapply Rle_trans; [exact H2|apply Rmax_r]). fold (nb delta mn mx 0) in H0. fold (nb delta mn mx 1) in H1.
    set (q0 := qi delta mn c 0) in *. set (q1 := qi delta mn c 1) in *. set (q2 := qi delta mn c 2) in *. set (m0 := nb delta mn mx 0) in *. set (m1 := nb delta mn mx 1) in *.
    assert (0 <= q1 * m0)%R by (apply Rmult_le_pos; lra). assert (k2 * k0 <= q2 * m0)%R by (apply Rmult_le_compat; lra). assert (0 <= k2 * k0)%R by (apply Rmult_le_pos; lra).
    assert (k2 * k0 * k1 <= q2 * m0 * m1)%R by (apply Rmult_le_compat; lra). lra.
  Qed.
End Faces.

Lemma face_centre_range N X c s d lo hi : s < 6 -> (forall l, l < 8 -> (lo <= X (N c l) d <= hi)%R) -> (lo <= face_centre N X c s d <= hi)%R.
Proof.
  intros Hs H. assert (H0 := H 0 ltac:(lia)). assert (H1 := H 1 ltac:(lia)). assert (H2 := H 2 ltac:(lia)). assert (H3 := H 3 ltac:(lia)). assert (H4 := H 4 ltac:(lia)). assert (H5 := H 5 ltac:(lia)). assert (H6 := H 6 ltac:(lia)). assert (H7 := H 7 ltac:(lia)).
  unfold face_centre, side_mean. do 6 (destruct s as [|s]; [cbn; lra|]). exfalso. lia.
Qed.

Section Conn.
  Variables (m : cmesh) (N : nat -> nat -> nat) (X : nat -> nat -> R) (d : R) (nc : nat).
  Hypotheses (HM : cdescribes m N X) (Ec : cm_cells m = S nc) (HL : corner_spacing N X nc d) (Hd : (0 < d <= 10 ^ 4)%R).

  Lemma d64 : (0 < d <= 10 ^ 64)%R.
  Proof. split; [lra|]. apply Rle_trans with (10 ^ 4)%R; [lra|]. apply Rle_pow; [lra|lia]. Qed.
  Lemma patch_key32_eq delta mn mx c : (0 < delta)%R -> patch_key32 delta mn mx c = i32 (trunc (flat delta mn mx c)).
  Proof. intros H. unfold patch_key32. rewrite !rdiv_ok by lra. reflexivity. Qed.

  Lemma face_start : exists mx mn, mesh_box (10 ^ 64) m = Ok (mx, mn) /\ last_dist (fun v => node_dist v 0 1) m = Ok d /\
    (forall n i, n < cm_nodes m -> i < 3 -> (mn i <= X n i <= mx i)%R) /\ (forall i, i < 3 -> (mn i <= mx i)%R) /\
    (forall i lo, i < 3 -> (lo <= 10 ^ 64)%R -> (forall n, n < cm_nodes m -> (lo <= X n i)%R) -> (lo <= mn i)%R) /\
    (forall i hi, i < 3 -> (- 10 ^ 64 <= hi)%R -> (forall n, n < cm_nodes m -> (X n i <= hi)%R) -> (mx i <= hi)%R) /\
    forall c s i, c < S nc -> s < 6 -> i < 3 -> (mn i <= face_centre N X c s i <= mx i)%R.
  Proof.
    destruct (mesh_box_ok (10 ^ 64) m N X HM) as (mx & mn & E & Hb & Hn & Hx). exists mx, mn. split; [exact E|].
    split. { apply (last_dist_spec _ m N X nc d HM Ec HL). intros v Hv. exists 0, 1. split; [lia|]. split; [lia|]. split; [lia|]. lra. }
    split; [exact Hb|]. assert (HN := proj1 HM).
    split. { intros i Hi. destruct (HN 0 0 ltac:(lia) ltac:(lia)) as (_ & Q). assert (Q' := Hb _ i Q Hi). lra. }
    split; [|split].
    - intros i v Hi Hv Hall. destruct (Hn i Hi) as [->|(n & Hnn & ->)]; [exact Hv|apply Hall; exact Hnn].
    - intros i v Hi Hv Hall. destruct (Hx i Hi) as [->|(n & Hnn & ->)]; [exact Hv|apply Hall; exact Hnn].
    - intros c s i Hc Hs Hi. apply face_centre_range; [exact Hs|]. intros l Hl. apply Hb; [apply (HN c l); lia|exact Hi].
  Qed.

  Lemma face_keys32_fit mx mn : mesh_box (10 ^ 64) m = Ok (mx, mn) -> (forall i, i < 3 -> (mn i <= mx i)%R) -> (Z.of_nat (S nc * 6) <= 2147483647)%Z ->
    (forall c s, c < S nc -> s < 6 -> (0 <= flat (d / 3) mn mx (face_centre N X c s))%R /\ (flat (d / 3) mn mx (face_centre N X c s) + 10 <= 2147483647)%R) ->
    exists ks, face_keys32 m (flatten 8 (S nc) N) = Ok ks.
  Proof.
    intros E Hmm HS HK. destruct face_start as (mx' & mn' & E' & EL & _). rewrite E in E'. injection E' as <- <-.
    unfold face_keys32. rewrite E. cbn [bind]. rewrite EL. cbn [bind]. cbv zeta. rewrite Ec. rewrite fits_ok by exact HS. cbn [bind]. rewrite Rmin_right by apply d64.
    edestruct (loop_inv (fun (n : nat) (ks : list nat) => forall k, In k ks -> k <= Z.to_nat 2147483637) (S nc)) as (ks & -> & Hks).
    3:{ cbn [bind]. rewrite fits_ok; [cbn [bind]; eauto|]. assert (Q := max_key_le ks _ Hks). lia. }
    - intros k [].
    - intros c ks Hc H. cbn beta.
      edestruct (loop_inv (fun (n : nat) (ks : list nat) => forall k, In k ks -> k <= Z.to_nat 2147483637) 6) as (ks' & E' & H').
      3:{ exists ks'. split; [exact E'|exact H']. }
      + exact H.
      + intros s ks' Hs H'. cbn beta. destruct (side_centre_ok m N X c s HM ltac:(lia) Hs) as (cen & Ecen & Hcen). rewrite Ec in Ecen. rewrite Ecen. cbn [bind].
        rewrite patch_key32_eq by lra. destruct (HK c s Hc Hs) as (K1 & K2).
        assert (Ef : flat (d / 3) mn mx cen = flat (d / 3) mn mx (face_centre N X c s)) by (unfold flat, qi; rewrite !Hcen by lia; reflexivity). rewrite Ef.
        assert (T := trunc_bounds _ K1). set (t := trunc (flat (d / 3) mn mx (face_centre N X c s))) in *.
        assert (0 <= t)%Z by (apply trunc_nonneg; exact K1). assert (t + 10 <= 2147483647)%Z by (apply le_IZR; rewrite plus_IZR; lra).
        rewrite i32_ok by lia. cbn [bind]. destruct (Z.ltb_spec t 0); [lia|]. eexists. split; [reflexivity|]. intros k Hk. apply in_app_or in Hk. destruct Hk as [Hk|[<-|[]]]; [apply H'; exact Hk|lia].
  Qed.

  Lemma patches_le ks P : length ks = S nc * 6 -> build_patches (S nc) ks (flatten 8 (S nc) N) = Ok P -> pt_num P <= S nc * 6.
  Proof.
    intros Lk EP. assert (HN := proj1 HM). assert (Mok : mesh_ok 8 (S nc) (cm_nodes m) (flatten 8 (S nc) N)) by (apply flatten_mesh; intros c l Hc Hl; apply (HN c l); lia).
    destruct (build_patches_ok ks _ (S nc) (cm_nodes m) Lk Mok) as (P' & EP' & E & _). rewrite EP in EP'. injection EP' as <-. rewrite E. unfold Proof_Patch.P. rewrite D_length. unfold firsts_before.
    eapply Nat.le_trans; [apply filter_le|]. rewrite seq_length. lia.
  Qed.

  Variables (G ne : nat) (gauss : list (option nat)) (GN : nat -> nat -> nat).
  Hypotheses (HG : forall e l, e < ne -> l < G -> getu gauss (e * G + l) = Ok (GN e l) /\ GN e l < cm_nodes m).

  Theorem conn32_fit lo L V V' : spans (cm_nodes m) X lo L -> (forall i, i < 3 -> (lo i <= 10 ^ 64 /\ - 10 ^ 64 <= lo i + L i)%R) ->
    let n := fun i => ((L i + / 10 ^ 12) / (d / 3))%R in
    (n 0%nat + n 1%nat * n 0%nat + n 2%nat * n 0%nat * n 1%nat + 10 <= IZR INT_MAX)%R ->
    (forall v, v < cm_nodes m -> uses 8 (S nc) N v <= V) -> (forall v, v < cm_nodes m -> uses G ne GN v <= V') ->
    (Z.of_nat (S nc * 24) <= INT_MAX)%Z -> (Z.of_nat (S nc * (8 * V)) <= INT_MAX)%Z -> (Z.of_nat (ne * G) <= INT_MAX)%Z -> (Z.of_nat (ne * (G * V')) <= INT_MAX)%Z ->
    build_connectivity32 G ne gauss m = build_connectivity G ne gauss m.
  Proof.
    intros Sp HR n HK HV HV' F1 F2 F3 F4. change INT_MAX with 2147483647%Z in *.
    unfold build_connectivity32, build_connectivity. cbv zeta.
    assert (HN := proj1 HM). rewrite Ec.
    rewrite (read_flat 8 (S nc) (cm_conn m) N) by (intros c l Hc Hl; apply (HN c l); lia). cbn [bind].
    set (nodes := flatten 8 (S nc) N).
    assert (BN : forall c l, c < S nc -> l < 8 -> N c l < cm_nodes m) by (intros c l Hc Hl; apply (HN c l); lia).
    assert (Mok : mesh_ok 8 (S nc) (cm_nodes m) nodes) by (apply flatten_mesh; exact BN).
    destruct (node_cell_spec _ _ _ _ Mok) as (a & Ea & Ha). rewrite Ea. cbn [bind]. rewrite fits_ok by lia. cbn [bind].
    destruct (corner_spec _ _ _ _ a Mok Ea) as (b & Eb & _). rewrite Eb. cbn [bind].
    destruct (pairs_le 8 (S nc) (cm_nodes m) N a V BN Ea HV) as (cnt & t & Et & Bt). fold nodes in Et. rewrite Et. cbn [bind]. rewrite fits_ok by lia. cbn [bind].
    destruct (build_cell_cell 8 (S nc) nodes a) as [cc|e0]; [|reflexivity]. cbn [bind].
    destruct face_start as (mx & mn & Ebox & EL & Hb & Hmm & Hlo & Hhi & Hcen).
    assert (Bn : forall i, i < 3 -> (lo i <= mn i)%R) by (intros i Hi; apply Hlo; [exact Hi|apply HR; exact Hi|intros v Hv; apply (Sp v i Hv Hi)]).
    assert (Bx : forall i, i < 3 -> (mx i <= lo i + L i)%R) by (intros i Hi; apply Hhi; [exact Hi|apply HR; exact Hi|intros v Hv; apply (Sp v i Hv Hi)]).
    destruct (face_keys32_fit mx mn Ebox Hmm ltac:(lia)) as (ks & Ek).
    { intros c s Hc Hs. assert (Q := flat_le (d / 3) mn mx ltac:(lra) Hmm (face_centre N X c s) (n 0%nat) (n 1%nat) (n 2%nat) ltac:(intros i Hi; apply Hcen; assumption)).
      assert (W : forall i, i < 3 -> ((mx i - mn i + / 10 ^ 12) / (d / 3) <= n i)%R).
      { intros i Hi. unfold n, Rdiv. apply Rmult_le_compat_r; [left; apply Rinv_0_lt_compat; lra|]. specialize (Bn i Hi). specialize (Bx i Hi). lra. }
      specialize (Q (W 0 ltac:(lia)) (W 1 ltac:(lia)) (W 2 ltac:(lia))). lra. }
    fold nodes in Ek. rewrite Ek. cbn [bind]. destruct (so_face_keys m nodes) as [Q|Q]; [|congruence]. rewrite Ek in Q. rewrite <- Q. cbn [bind].
    destruct (face_keys_ok m N X d nc HM Ec HL d64) as (ks' & _ & _ & Ek' & Lk & _). rewrite Ec in Ek'. fold nodes in Ek'. rewrite <- Q in Ek'. injection Ek' as <-.
    destruct (patch_spec _ _ ks nodes Lk Mok) as (P & EP & _). rewrite EP. cbn [bind]. assert (BP := patches_le ks P Lk EP). rewrite fits_ok by lia. cbn [bind].
    rewrite (read_flat G ne gauss GN) by (intros e l He Hl; apply (HG e l He Hl)). cbn [bind]. set (gn := flatten G ne GN).
    assert (Gok : mesh_ok G ne (cm_nodes m) gn) by (apply flatten_mesh; intros e l He Hl; apply (HG e l He Hl)).
    destruct (elem_node_ok _ _ _ _ Gok) as (en & Een & Een'). rewrite Een. cbn [bind]. rewrite fits_ok by lia. cbn [bind].
    destruct (pairs_le G ne (cm_nodes m) GN en V' ltac:(intros e l He Hl; apply (HG e l He Hl)) Een' HV') as (cnt' & t' & Et' & Bt'). fold gn in Et'. rewrite Et'. cbn [bind]. rewrite fits_ok by lia. reflexivity.
  Qed.

  Lemma face_keys32_val mx mn ks c s : mesh_box (10 ^ 64) m = Ok (mx, mn) -> face_keys32 m (flatten 8 (S nc) N) = Ok ks -> c < S nc -> s < 6 ->
    (trunc (flat (d / 3) mn mx (face_centre N X c s)) + 10 <= 2147483647)%Z.
  Proof.
    intros Ebox Ek Hc Hs. destruct face_start as (mx' & mn' & Ebox' & EL & _). clear Ebox'.
    unfold face_keys32 in Ek. rewrite Ebox in Ek. cbn [bind] in Ek. rewrite EL in Ek. cbn [bind] in Ek. cbv zeta in Ek. rewrite Ec in Ek. rewrite (Rmin_right _ _ (proj2 d64)) in Ek.
    destruct (fits (S nc * 6)); [|discriminate]. cbn [bind] in Ek.
    apply bind_ok in Ek. destruct Ek as (ks' & EL' & Ek). apply bind_ok in Ek. destruct Ek as (sz & Ef10 & _). apply fits_inv in Ef10.
    assert (K1 : forall c1 a1 b1 x1, loop 6 (fun s ks => do cen <- side_centre m (flatten 8 (S nc) N) c1 s; do k <- patch_key32 (d / 3) mn mx cen; if Z.ltb k 0 then Err OOB else Ok (ks ++ [Z.to_nat k])) a1 = Ok b1 -> In x1 a1 -> In x1 b1).
    { intros c1 a1 b1 x1 Q. apply (loop_ok_kept _ _ _ _ 0 Q); [|lia]. intros j a' b' y Q' I. apply bind_ok in Q'. destruct Q' as (? & _ & Q'). apply bind_ok in Q'. destruct Q' as (z & _ & Q'). destruct (Z.ltb z 0); [discriminate|]. injection Q' as <-. apply in_or_app. left. exact I. }
    destruct (loop_ok_kept _ _ _ _ c EL' (fun j a1 b1 x1 => K1 j a1 b1 x1) Hc) as (_ & x & y & Exy & Ky). cbn beta in Exy.
    destruct (loop_ok_kept _ _ _ _ s Exy) as (_ & x' & y' & Exy' & Ky'); [|exact Hs|].
    { intros j a' b' z0 Q' I. apply bind_ok in Q'. destruct Q' as (? & _ & Q'). apply bind_ok in Q'. destruct Q' as (z & _ & Q'). destruct (Z.ltb z 0); [discriminate|]. injection Q' as <-. apply in_or_app. left. exact I. }
    cbn beta in Exy'. clear Exy EL'.
    destruct (side_centre_ok m N X c s HM ltac:(lia) Hs) as (cen & Ecen & Hcen). rewrite Ec in Ecen. rewrite Ecen in Exy'. cbn [bind] in Exy'.
    rewrite patch_key32_eq in Exy' by lra.
    assert (Ef : flat (d / 3) mn mx cen = flat (d / 3) mn mx (face_centre N X c s)) by (unfold flat, qi; rewrite !Hcen by lia; reflexivity). rewrite Ef in Exy'.
    apply bind_ok in Exy'. destruct Exy' as (z & Ez & Q). apply i32_inv in Ez. destruct Ez as (Ez1 & Ez2). destruct (Z.ltb_spec z 0) as [|Zp]; [discriminate|]. injection Q as <-.
    assert (Iz : In (Z.to_nat z) ks') by (apply Ky, Ky', in_or_app; right; left; reflexivity). apply max_key_ge in Iz. rewrite <- Ez1. lia.
  Qed.

  Theorem conn32_large c s a0 b0 a1 b1 a2 (k0 k1 k2 : R) : c < S nc -> s < 6 ->
    a0 < cm_nodes m -> b0 < cm_nodes m -> a1 < cm_nodes m -> b1 < cm_nodes m -> a2 < cm_nodes m -> (0 <= k0)%R -> (0 <= k1)%R -> (0 <= k2)%R ->
    (k0 * (d / 3) <= X b0 0%nat - X a0 0%nat)%R -> (k1 * (d / 3) <= X b1 1%nat - X a1 1%nat)%R -> (k2 * (d / 3) <= face_centre N X c s 2%nat - X a2 2%nat)%R ->
    (2147483638 <= k0 * k1 * k2)%R -> (exists C, build_connectivity G ne gauss m = Ok C) -> build_connectivity32 G ne gauss m = Err Overflow.
  Proof.
    intros Hc Hs Ha0 Hb0 Ha1 Hb1 Ha2 P0 P1 P2 H0 H1 H2 HK (C & EC).
    destruct (so_build_connectivity G ne gauss m) as [Q|Q]; [|exact Q]. exfalso. rewrite EC in Q.
    assert (Ek : exists ks, face_keys32 m (flatten 8 (S nc) N) = Ok ks).
    { assert (HN := proj1 HM). unfold build_connectivity32 in Q. cbv zeta in Q. rewrite Ec in Q.
      rewrite (read_flat 8 (S nc) (cm_conn m) N) in Q by (intros c' l Hc' Hl; apply (HN c' l); lia). cbn [bind] in Q.
      apply bind_ok in Q. destruct Q as (a & _ & Q). apply bind_ok in Q. destruct Q as (? & _ & Q). apply bind_ok in Q. destruct Q as (b & _ & Q).
      apply bind_ok in Q. destruct Q as ((?, ?) & _ & Q). apply bind_ok in Q. destruct Q as (? & _ & Q). apply bind_ok in Q. destruct Q as (? & _ & Q). apply bind_ok in Q. destruct Q as (ks & Ek & _). exists ks. exact Ek. }
    destruct Ek as (ks & Ek). destruct face_start as (mx & mn & Ebox & _ & Hb & _).
    assert (V := face_keys32_val mx mn ks c s Ebox Ek Hc Hs).
    assert (U0 := Hb a0 0 Ha0 ltac:(lia)). assert (U1 := Hb b0 0 Hb0 ltac:(lia)). assert (U2 := Hb a1 1 Ha1 ltac:(lia)). assert (U3 := Hb b1 1 Hb1 ltac:(lia)). assert (U4 := Hb a2 2 Ha2 ltac:(lia)).
    assert (Fl := flat_ge (d / 3) mn mx ltac:(lra) (face_centre N X c s) k0 k1 k2 P0 P1 P2 ltac:(lra) ltac:(lra) ltac:(lra)).
    assert (Tb := trunc_bounds (flat (d / 3) mn mx (face_centre N X c s)) ltac:(lra)).
    apply IZR_le in V. rewrite plus_IZR in V. lra.
  Qed.
End Conn.
