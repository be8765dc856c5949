(** Connectivity from any face keys; the face keys in rounded arithmetic. *)
From Coq Require Import Reals List Arith ZArith Lra Lia Sorted Bool FunctionalExtensionality.
Import ListNotations.
Require Import Verif.Base Verif.NatSum Verif.RBase Verif.RSum Verif.Spec_Conn Verif.Model_Conn Verif.Proof_Conn Verif.Proof_Neigh Verif.Proof_Elem
  Verif.Spec_Patch Verif.Proof_Patch Verif.Proof_Bdy Verif.Prop_Patch Verif.Model_Geom Verif.Proof_Geom Verif.Proof_Tri Verif.Proof_Blas
  Verif.Model_Full Verif.Spec_Full Verif.Proof_Full Verif.Proof_Full2 Verif.Spec_Float Verif.Float_Base Verif.Model_FloatLagrange Verif.Model_FloatRefine Verif.Spec_FloatRefine
  Verif.Proof_FloatRefine Verif.Proof_FloatRefine3 Verif.Proof_FloatRefine4 Verif.Model_FloatPatch Verif.Model_Patch.
Local Open Scope nat_scope.

(** build_connectivity with the keys of the sides as a parameter *)
Definition conn_from (fk : list nat -> res (list nat)) (G nelem : nat) (gauss : list (option nat)) (m : cmesh) : res connectivity :=
  let nc := cm_cells m in let nn := cm_nodes m in
  do nodes <- read_all (nc * 8) (cm_conn m);
  do a <- build_node_cell 8 nc nn nodes;
  do b <- build_corner 8 nc nn nodes a;
  do c <- build_cell_cell 8 nc nodes a;
  do keys <- fk nodes;
  do pt <- build_patches nc keys nodes;
  do gnodes <- read_all (nelem * G) gauss;
  do (en, nie) <- build_elem_node G nelem nn gnodes;
  do ee <- build_elem_elem G nelem nc gnodes en;
  Ok {| cn_node_cells := a; cn_corners := b; cn_cell_cells := c; cn_patches := pt;
        cn_node_elems := en; cn_nodes_in_elem := nie; cn_elem_elems := ee |}.
Lemma conn_exact G ne gauss m : build_connectivity G ne gauss m = conn_from (face_keys m) G ne gauss m.
Proof. reflexivity. Qed.
Lemma conn_float rnd G ne gauss m : build_connectivityf rnd G ne gauss m = conn_from (face_keysf rnd m) G ne gauss m.
Proof. reflexivity. Qed.

Theorem conn_from_ok fk ks G ne gauss m N X GN nc : cdescribes m N X -> cm_cells m = S nc -> fk (flatten 8 (cm_cells m) N) = Ok ks -> length ks = S nc * 6 ->
  (forall e l, e < ne -> l < G -> getu gauss (e * G + l) = Ok (GN e l) /\ GN e l < cm_nodes m) -> ne <= S nc ->
  (exists c c', c < S nc /\ c' < S nc /\ c <> c' /\ touch 8 N c c') ->
  exists C pt, conn_from fk G ne gauss m = Ok C /\
    around_nodes (cn_node_cells C) (cm_nodes m) (S nc) 8 N /\
    corners_right (cn_corners C) (cm_nodes m) (S nc) N /\
    neighbours_right (num_cells_in_cell (cn_cell_cells C)) (cells_in_cell (cn_cell_cells C)) (S nc) 8 N /\
    patches_right (cn_patches C) (S nc) N pt /\
    (forall c s c' s', c < S nc -> s < 6 -> c' < S nc -> s' < 6 ->
       (pt c s = pt c' s' <-> nth (c * 6 + s) ks 0 = nth (c' * 6 + s') ks 0)) /\
    around_nodes (cn_node_elems C) (cm_nodes m) ne G GN /\
    (forall e l, e < ne -> l < G -> getu (cn_nodes_in_elem C) (e * G + l) = Ok (GN e l)) /\
    neighbours_right (num_elems_in_elem (cn_elem_elems C)) (elems_in_elem (cn_elem_elems C)) ne G GN.
Proof.
  intros HM Ec Ek Lk HG Hne HS. unfold conn_from. cbv zeta.
  assert (HN := proj1 HM). rewrite Ec.
  rewrite (read_flat 8 (S nc) (cm_conn m) N) by (intros c l Hc Hl; apply (HN c l); lia). cbn [bind].
  set (nodes := flatten 8 (S nc) N).
  assert (Mok : mesh_ok 8 (S nc) (cm_nodes m) nodes) by (apply flatten_mesh; intros c l Hc Hl; apply (HN c l); lia).
  destruct (node_cell_spec _ _ _ _ Mok) as (a & Ea & Ha). rewrite Ea. cbn [bind].
  destruct (corner_spec _ _ _ _ a Mok Ea) as (b & Eb & Eb' & Hb1 & Hb2). rewrite Eb. cbn [bind].
  destruct (cell_cell_ok _ _ _ _ a Mok Ea) as (cc & Ecc & Hcc).
  { destruct HS as (c & c' & Hc & Hc' & Ne & T). exists c, c'. repeat (split; [assumption|]). apply flatten_share; assumption. }
  rewrite Ecc. cbn [bind].
  rewrite Ec in Ek. fold nodes in Ek. rewrite Ek. cbn [bind].
  destruct (patch_spec _ _ ks nodes Lk Mok) as (P & EP & P1 & P2 & P3 & P4 & P5). rewrite EP. cbn [bind].
  destruct (bdy_spec _ _ ks nodes P Lk Mok EP) as (B & EB & B1 & B2 & B3).
  rewrite (read_flat G ne gauss GN) by (intros e l He Hl; apply (HG e l He Hl)). cbn [bind]. set (gn := flatten G ne GN).
  assert (Gok : mesh_ok G ne (cm_nodes m) gn) by (apply flatten_mesh; intros e l He Hl; apply (HG e l He Hl)).
  destruct (elem_node_ok _ _ _ _ Gok) as (en & Een & Een'). rewrite Een. cbn [bind].
  destruct (elem_elem_spec _ _ _ _ en (S nc) Gok Een' Hne) as (ee & Eee & Hee). rewrite Eee. cbn [bind].
  set (pt := fun c s => match patches_in_cell P c s with Ok z => Z.to_nat z | Err _ => 0 end).
  assert (Hpt : forall c s, c < S nc -> s < 6 -> patches_in_cell P c s = Ok (Z.of_nat (pt c s)) /\ pt c s < pt_num P).
  { intros c s Hc Hs. destruct (P2 c s Hc Hs) as (_ & q & Hq & E). unfold pt. rewrite E, Nat2Z.id. auto. }
  assert (Hpk : forall c s c' s', c < S nc -> s < 6 -> c' < S nc -> s' < 6 -> (pt c s = pt c' s' <-> nth (c * 6 + s) ks 0 = nth (c' * 6 + s') ks 0)).
  { intros c s c' s' Hc Hs Hc' Hs'. rewrite <- P3 by assumption. destruct (Hpt c s Hc Hs) as (-> & _). destruct (Hpt c' s' Hc' Hs') as (-> & _). split; [intros ->; reflexivity|]. intros E. injection E as E. lia. }
  eexists _, pt. split; [reflexivity|]. cbn [cn_node_cells cn_corners cn_cell_cells cn_patches cn_node_elems cn_nodes_in_elem cn_elem_elems].
  split; [|split; [|split; [|split; [|split; [|split; [|split]]]]]].
  - intros n Hn. destruct (Ha n Hn) as (L & A1 & A2 & A3 & A4). exists L. split; [split; assumption|]. split; [exact A3|]. intros c. rewrite A4. destruct (Nat.ltb_spec c (S nc)); [|reflexivity]. apply flatten_mult. assumption.
  - split; [exact Hb1|]. intros n Hn. destruct (Hb2 n Hn) as (L & A1 & A2 & A3 & A4). exists L. split; [split; assumption|]. split; [exact A3|]. intros k. rewrite A4. split.
    + intros (c & l & Hc & -> & T). apply flatten_has in T; [|exact Hc]. exists c, l. destruct T. auto.
    + intros (c & l & Hc & Hl & -> & T). exists c, l. split; [exact Hc|]. split; [reflexivity|]. apply flatten_has; auto.
  - intros c Hc. destruct (Hcc c Hc) as (L & A1 & A2 & A3 & A4). exists L. split; [split; assumption|]. split; [exact A3|]. intros c'. rewrite A4. split.
    + intros (H1 & H2 & T). split; [exact H1|]. split; [exact H2|]. apply flatten_share in T; assumption.
    + intros (H1 & H2 & T). split; [exact H1|]. split; [exact H2|]. apply flatten_share; assumption.
  - split; [exact P1|]. split; [intros c s Hc Hs; destruct (P2 c s Hc Hs) as (A & _); destruct (Hpt c s Hc Hs); auto|]. split.
    + intros q Hq. destruct (P5 q Hq) as (q0 & rest & A1 & A2 & A3 & A4 & A5 & A6 & A7).
      assert (IS : forall x, In x (q0 :: rest) <-> x < S nc * 6 /\ nth x ks 0 = nth q0 ks 0).
      { intros x. rewrite <- A2. unfold sides_with_key. rewrite filter_In, in_seq, Nat.eqb_eq, Lk. intuition lia. }
      set (q1 := last rest q0).
      assert (Iq1 : In q1 (q0 :: rest)).
      { unfold q1. destruct rest as [|r rest]; [left; reflexivity|]. right. clear. revert r. induction rest as [|y rest IH]; intros r; [left; reflexivity|]. right. apply (IH y). }
      assert (Bd0 := proj1 (IS q0) (or_introl eq_refl)). assert (Bd1 := proj1 (IS q1) Iq1).
      assert (St : StronglySorted lt (q0 :: rest)).
      { rewrite <- A2. unfold sides_with_key. apply Sorted_StronglySorted; [intros x y z; lia|]. exact (poss_sorted (length ks) (fun q => Nat.eqb (nth q ks 0) (nth q0 ks 0))). }
      assert (Rg : forall x, In x (q0 :: rest) -> q0 <= x <= q1).
      { intros x I. split; [destruct I as [->|I]; [lia|]; inversion St as [|? ? S1 S2]; rewrite Forall_forall in S2; specialize (S2 x I); lia|].
        unfold q1. clear -St I. revert x q0 St I. induction rest as [|y rest IH]; intros x q0 St I; [destruct I as [->|[]]; cbn; lia|]. inversion St as [|? ? S1 S2]; subst.
        rewrite last_cons_eq. destruct I as [->|I].
        - assert (F := proj1 (Forall_forall _ _) S2 y (or_introl eq_refl)). specialize (IH y y S1 (or_introl eq_refl)). lia.
        - apply IH; assumption. }
      destruct (divmod_pos q0 6 (S nc) (proj1 Bd0)) as (D1 & D2 & D3). destruct (divmod_pos q1 6 (S nc) (proj1 Bd1)) as (D4 & D5 & D6).
      assert (Eq0 : pt (q0 / 6) (q0 mod 6) = q). { destruct (Hpt _ _ D1 D2) as (E & _). apply Nat2Z.inj. congruence. }
      assert (Eq1 : pt (q1 / 6) (q1 mod 6) = q). { rewrite <- Eq0. apply Hpk; try assumption. rewrite D3, D6. apply Bd1. }
      exists (q0 / 6), (q0 mod 6), (q1 / 6), (q1 mod 6). repeat (split; [assumption|]). rewrite D3, D6.
      assert (E1 : (if Nat.eqb q0 q1 then (-1)%Z else Z.of_nat (q1 / 6)) = match rest with [] => (-1)%Z | _ => Z.of_nat (last rest 0 / 6) end /\
                   (if Nat.eqb q0 q1 then (-1)%Z else Z.of_nat q1) = match rest with [] => (-1)%Z | _ => Z.of_nat (last rest 0) end).
      { destruct rest as [|r rest]; [unfold q1; cbn [last]; rewrite Nat.eqb_refl; auto|].
        assert (q0 < r) by (inversion St as [|? ? S1 S2]; subst; exact (proj1 (Forall_forall _ _) S2 r (or_introl eq_refl))).
        assert (Q := Rg r (or_intror (or_introl eq_refl))). destruct (Nat.eqb_spec q0 q1); [lia|]. unfold q1. rewrite (last_default r rest q0 0). auto. }
      split.
      { intros x t Hx Ht Ep. apply Rg. apply IS. split; [lia|]. rewrite <- D3. apply Hpk; try assumption. congruence. }
      destruct E1 as (-> & ->). repeat (split; [assumption|]).
      intros k Hk'. destruct (A7 k Hk') as (n' & E' & ->). unfold node_in_patch_in_cell in E'. rewrite (table_corner _ _ D2 Hk') in E'. cbn [bind] in E'.
      unfold get, nodes in E'. rewrite flatten_at in E' by (try assumption; apply side_corner_lt; assumption). injection E' as <-. reflexivity.
    + exists B. split; [exact EB|]. split; [exact B1|]. split; [intros q I; apply B2 in I; apply I|]. intros c s Hc Hs. destruct (Hpt c s Hc Hs) as (Epc & _). split.
      * intros I c' s' Hc' Hs' E. apply (proj1 (B3 c s Hc Hs)); [exists (pt c s); auto|assumption|assumption|]. apply Hpk; assumption.
      * intros H. destruct (proj2 (B3 c s Hc Hs)) as (q & E & I); [|rewrite Epc in E; injection E as E; apply Nat2Z.inj in E; rewrite E; exact I].
        intros c' s' Hc' Hs' E. apply H; [assumption|assumption|]. apply Hpk; assumption.
  - exact Hpk.
  - destruct (node_cell_spec _ _ _ _ Gok) as (en' & E' & Hen). rewrite Een' in E'. injection E' as <-.
    intros n Hn. destruct (Hen n Hn) as (L & A1 & A2 & A3 & A4). exists L. split; [split; assumption|]. split; [exact A3|]. intros c. rewrite A4. destruct (Nat.ltb_spec c ne); [|reflexivity]. apply flatten_mult. assumption.
  - intros e l He Hl. unfold getu, get. rewrite nth_error_map. unfold gn. rewrite flatten_at by assumption. reflexivity.
  - intros c Hc. destruct (Hee c Hc) as (L & A1 & A2 & A3 & A4). exists L. split; [split; assumption|]. split; [exact A3|]. intros c'. rewrite A4. split.
    + intros (H1 & H2 & T). split; [exact H1|]. split; [exact H2|]. apply flatten_share in T; assumption.
    + intros (H1 & H2 & T). split; [exact H1|]. split; [exact H2|]. apply flatten_share; assumption.
Qed.
