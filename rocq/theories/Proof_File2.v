(** Files that list a mesh, and the file of the box mesh creator. *)
From Coq Require Import Reals List Arith ZArith Lra Lia Bool.
Import ListNotations.
Require Import Verif.Base Verif.RBase Verif.NatSum Verif.Model_Full Verif.Spec_Patch Verif.Spec_Full Verif.Spec_High Verif.Model_Box Verif.Spec_Box Verif.Proof_Box Verif.Prop_Box
  Verif.Proof_Full2 Verif.Model_Conn Verif.Spec_Conn Verif.Proof_Conn Verif.Proof_Neigh Verif.Model_Average Verif.Model_File Verif.Spec_File Verif.Proof_File Verif.Model_Patch.
Local Open Scope nat_scope.

Lemma map_flat_map {A B C} (f : B -> C) (g : A -> list B) l : map f (flat_map g l) = flat_map (fun a => map f (g a)) l.
Proof. induction l as [|a l IH]; [reflexivity|]. cbn. rewrite map_app, IH. reflexivity. Qed.
Lemma as_blocks {A} (d : A) n m l : length l = m * n -> l = flat_map (fun a => map (fun b => nth (a * n + b) l d) (seq 0 n)) (seq 0 m).
Proof.
  intros L. destruct (blocks (fun a b => nth (a * n + b) l d) n m) as (B1 & B2).
  apply (nth_ext _ _ d d); [rewrite B1; exact L|]. intros q Hq. rewrite L in Hq. assert (n <> 0) by nia.
  assert (Q1 : q / n < m) by (apply Nat.div_lt_upper_bound; lia). assert (Q2 : q mod n < n) by (apply Nat.mod_upper_bound; assumption).
  assert (E : q = q / n * n + q mod n) by (rewrite Nat.mul_comm; apply Nat.div_mod; assumption).
  specialize (B2 _ _ Q1 Q2). rewrite <- E in B2. symmetry. apply (nth_error_nth _ _ d). exact B2.
Qed.

(** lists_mesh is geo_text with the right lists *)
Lemma lists_text t nn ne X V : lists_mesh t nn ne X V -> exists xs cs rest, t = geo_text nn xs ne cs ++ rest /\ length xs = nn * 3 /\ length cs = ne * 8 /\
  (forall n d, n < nn -> d < 3 -> nth_error xs (d * nn + n) = Some (X n d)) /\ (forall c v, c < ne -> v < 8 -> nth_error cs (c * 8 + v) = Some (Z.of_nat (V c v) + 1)%Z).
Proof.
  intros (rest & ->). destruct (blocks (fun d n => X n d) nn 3) as (X1 & X2). destruct (blocks (fun c v => (Z.of_nat (V c v) + 1)%Z) 8 ne) as (C1 & C2).
  exists (flat_map (fun d => map (fun n => X n d) (seq 0 nn)) (seq 0 3)), (flat_map (fun c => map (fun v => (Z.of_nat (V c v) + 1)%Z) (seq 0 8)) (seq 0 ne)), rest.
  split; [|split; [rewrite X1; lia|split; [exact C1|split; [intros n d Hn Hd; exact (X2 d n Hd Hn)|intros; apply C2; assumption]]]].
  assert (E1 : map TNum (flat_map (fun d => map (fun n => X n d) (seq 0 nn)) (seq 0 3)) = flat_map (fun d => map (fun n => TNum (X n d)) (seq 0 nn)) (seq 0 3)).
  { rewrite map_flat_map. apply flat_map_ext. intros a. apply map_map. }
  assert (E2 : map TInt (flat_map (fun c => map (fun v => (Z.of_nat (V c v) + 1)%Z) (seq 0 8)) (seq 0 ne)) = flat_map (fun c => map (fun v => TInt (Z.of_nat (V c v) + 1)%Z) (seq 0 8)) (seq 0 ne)).
  { rewrite map_flat_map. apply flat_map_ext. intros a. apply map_map. }
  unfold geo_text. rewrite E1, E2. cbn [app]. rewrite <- app_assoc. reflexivity.
Qed.
Lemma text_lists nn xs ne cs rest (V : nat -> nat -> nat) : length xs = nn * 3 -> length cs = ne * 8 -> (forall c v, c < ne -> v < 8 -> nth (c * 8 + v) cs 0%Z = (Z.of_nat (V c v) + 1)%Z) ->
  lists_mesh (geo_text nn xs ne cs ++ rest) nn ne (fun n d => nth (d * nn + n) xs 0%R) V.
Proof.
  intros Lx Lc HV. exists rest. unfold geo_text. cbn [app]. f_equal. rewrite <- app_assoc. cbn [app].
  rewrite (as_blocks 0%R nn 3 xs) at 1 by lia. rewrite map_flat_map. f_equal; [apply flat_map_ext; intros a; rewrite map_map; reflexivity|]. f_equal. f_equal.
  rewrite (as_blocks 0%Z 8 ne cs) at 1 by lia. rewrite map_flat_map. f_equal.
  rewrite !flat_map_concat_map. f_equal. apply map_ext_in. intros c Hc. apply in_seq in Hc. rewrite map_map. apply map_ext_in. intros v Hv. apply in_seq in Hv. rewrite HV by lia. reflexivity.
Qed.

Lemma lists_parse t nn ne X V : lists_mesh t nn ne X V -> (forall e v, e < ne -> v < 8 -> V e v < nn) ->
  exists m, parse_mesh t = Ok m /\ cm_nodes m = nn /\ cm_cells m = ne /\ cdescribes m (fun e l => V e (vert l)) X.
Proof.
  intros HT HV. destruct (lists_text _ _ _ _ _ HT) as (xs & cs & rest & -> & Lx & Lc & Hx & Hc).
  assert (Pc : forall q, q < ne * 8 -> (1 <= nth q cs 0)%Z).
  { intros q Hq. assert (Q1 : q / 8 < ne) by (apply Nat.div_lt_upper_bound; lia). assert (Q2 : q mod 8 < 8) by (apply Nat.mod_upper_bound; lia).
    specialize (Hc _ _ Q1 Q2). rewrite (Nat.mul_comm _ 8), <- Nat.div_mod in Hc by lia. rewrite (nth_error_nth _ _ 0%Z Hc). lia. }
  destruct (parse_ok nn xs ne cs rest ltac:(lia) ltac:(lia) Pc) as (m & E & E1 & E2 & H1 & H2). exists m. split; [exact E|]. split; [exact E1|]. split; [exact E2|]. split.
  - intros c l Hc' Hl. rewrite E2 in Hc'. rewrite H2, E1 by assumption. assert (Vl := vert_lt l Hl). rewrite (nth_error_nth _ _ 0%Z (Hc c (vert l) Hc' Vl)). split; [f_equal; lia|]. apply HV; assumption.
  - intros n d Hn Hd. rewrite E1 in Hn. rewrite H1, Hx by assumption. reflexivity.
Qed.

Lemma vert_corner v : v < 8 -> let '(a, b, c) := fe_corner v in vert (a + 2 * b + 4 * c) = v /\ a + 2 * b + 4 * c < 8.
Proof. intros H. do 8 (destruct v as [|v]; [cbn; lia|]). lia. Qed.
Lemma vert_corners ne V : same_corners ne V (fun e l => V e (vert l)).
Proof. intros e v He Hv. assert (H := vert_corner v Hv). destruct (fe_corner v) as [[a b] c]. rewrite (proj1 H). reflexivity. Qed.
Lemma same_corners_vert ne V N : same_corners ne V N -> forall e l, e < ne -> l < 8 -> N e l = V e (vert l).
Proof.
  intros H e l He Hl. specialize (H e (vert l) He (vert_lt l Hl)). do 8 (destruct l as [|l]; [exact H|]). lia.
Qed.
Lemma vert_spacing V X e d : corner_spacing V X e d -> corner_spacing (fun e l => V e (vert l)) X e d.
Proof.
  intros (H1 & a & b & Ha & Hb & Ne & H2). split.
  - intros a' b' Ha' Hb' Ne'. apply H1; [apply vert_lt; assumption|apply vert_lt; assumption|]. intros E. apply Ne'. rewrite <- (vert_vert a'), <- (vert_vert b'), E by assumption. reflexivity.
  - exists (vert a), (vert b). split; [apply vert_lt; assumption|]. split; [apply vert_lt; assumption|]. split.
    + intros E. apply Ne. rewrite <- (vert_vert a), <- (vert_vert b), E by assumption. reflexivity.
    + rewrite !vert_vert by assumption. exact H2.
Qed.
Lemma vert_touch V c c' : touch 8 V c c' <-> touch 8 (fun e l => V e (vert l)) c c'.
Proof.
  split; intros (l & l' & Hl & Hl' & E); exists (vert l), (vert l'); (split; [apply vert_lt; assumption|]); (split; [apply vert_lt; assumption|]).
  - rewrite !vert_vert by assumption. exact E.
  - exact E.
Qed.

(** the connectivity of the initial mesh *)
Lemma init_connectivity_ok m N X d nc : cdescribes m N X -> cm_cells m = S nc -> corner_spacing N X nc d -> (0 < d <= 10 ^ 64)%R ->
  (exists c c', c < S nc /\ c' < S nc /\ c <> c' /\ touch 8 N c c') -> init_connectivity m = Ok tt.
Proof.
  intros HM Ec HL Hd HS. destruct (build_connectivity_ok 0 0 [] m N X (fun _ _ => 0) d nc HM Ec HL Hd ltac:(intros; lia) ltac:(lia) HS) as (C & pt & mx & mn & E & _).
  unfold build_connectivity in E. unfold init_connectivity. cbv zeta in *. rewrite Ec in *. cbn [Nat.eqb].
  destruct (read_all (S nc * 8) (cm_conn m)); [|discriminate]. cbn [bind] in *. destruct (build_node_cell 8 (S nc) (cm_nodes m) a); [|discriminate]. cbn [bind] in *.
  destruct (build_corner _ _ _ _ _); [|discriminate]. cbn [bind] in *. destruct (build_cell_cell _ _ _ _); [|discriminate]. cbn [bind] in *.
  destruct (face_keys _ _); [|discriminate]. cbn [bind] in *. destruct (build_patches _ _ _); [reflexivity|discriminate].
Qed.
Lemma init_connectivity_isolated m N X : cdescribes m N X -> 0 < cm_cells m ->
  (forall c c', c < cm_cells m -> c' < cm_cells m -> c <> c' -> ~ touch 8 N c c') -> init_connectivity m = Err OOB.
Proof.
  intros (HN & HX) Hc No. unfold init_connectivity. cbv zeta. destruct (Nat.eqb_spec (cm_cells m) 0); [lia|].
  rewrite (read_flat 8 (cm_cells m) (cm_conn m) N) by (intros c l Hc' Hl; apply (HN c l Hc' Hl)). cbn [bind].
  assert (Mok : mesh_ok 8 (cm_cells m) (cm_nodes m) (flatten 8 (cm_cells m) N)) by (apply flatten_mesh; intros c l Hc' Hl; apply (HN c l Hc' Hl)).
  destruct (node_cell_spec _ _ _ _ Mok) as (a & Ea & _). rewrite Ea. cbn [bind].
  destruct (corner_spec _ _ _ _ a Mok Ea) as (b & Eb & _). rewrite Eb. cbn [bind].
  rewrite (cell_cell_isolated _ _ _ _ a Mok Ea); [reflexivity|].
  intros (c & d & Hc' & Hd & Ne & Sh). apply flatten_share in Sh; try assumption. exact (No c d Hc' Hd Ne Sh).
Qed.
(** an unset coordinate stops the range computation *)
Lemma mesh_box_uninit big m n d : n < cm_nodes m -> d < 3 -> cm_coord m n d = Err Uninit -> exists e, mesh_box big m = Err e.
Proof.
  intros Hn Hd E. unfold mesh_box. replace (cm_nodes m) with (n + S (cm_nodes m - n - 1)) by lia. rewrite loop_split.
  destruct (loop n _ _) as [[mx mn]|e] eqn:E1; [|eexists; reflexivity]. cbn [bind loop_from].
  match goal with |- context [loop 3 ?f ?s] => replace (loop 3 f s) with (loop (d + S (3 - d - 1)) f s) by (f_equal; lia) end. rewrite loop_split. destruct (loop d _ _) as [[mx' mn']|e] eqn:E2; [|eexists; reflexivity]. cbn [bind loop_from].
  rewrite E. eexists. reflexivity.
Qed.

(** the text meshbox writes *)
Lemma meshbox_lists fmt ni nj nk lx ly lz sx sy sz : 1 <= ni -> 1 <= nj -> 1 <= nk ->
  let np := (ni + 1) * (nj + 1) * (nk + 1) in let nc := ni * nj * nk in
  exists t X V, meshbox_file fmt ni nj nk lx ly lz sx sy sz = Ok t /\ lists_mesh t np nc X V /\ (forall e v, e < nc -> v < 8 -> V e v < np) /\
    (forall i j k, i <= ni -> j <= nj -> k <= nk -> X (point_of ni nj i j k) 0 = fmt (sx + INR i * lx / INR ni)%R /\
       X (point_of ni nj i j k) 1 = fmt (sy + INR j * ly / INR nj)%R /\ X (point_of ni nj i j k) 2 = fmt (sz + INR k * lz / INR nk)%R) /\
    (forall i j k v, i < ni -> j < nj -> k < nk -> v < 8 -> let '(a, b, c) := fe_corner v in V (cell_of ni nj i j k) v = point_of ni nj (i + a) (j + b) (k + c)).
Proof.
  intros Hi Hj Hk np nc. destruct (build_ok ni nj nk lx ly lz sx sy sz Hi Hj Hk) as (b & Eb & _).
  destruct (C48_points _ _ _ _ _ _ _ _ _ _ Eb) as (_ & _ & Hp). destruct (C48_cell_points _ _ _ _ _ _ _ _ _ _ Eb) as (_ & _ & Hc).
  destruct (C48_ensight _ _ _ _ _ _ _ _ _ _ Eb) as (xs & cs & Ee & Lx & Lc & Hxs & Hcs). fold np nc in Ee, Lx, Lc, Hxs, Hcs.
  set (V := fun c v => Z.to_nat (nth (c * 8 + v) cs 0 - 1)%Z).
  assert (HV : forall c v q, nth_error cs (c * 8 + v) = Some (Z.of_nat q + 1)%Z -> nth (c * 8 + v) cs 0%Z = (Z.of_nat (V c v) + 1)%Z /\ V c v = q).
  { intros c v q E. unfold V. rewrite (nth_error_nth _ _ 0%Z E). split; lia. }
  unfold meshbox_file. fold np nc. rewrite Eb. cbn [bind]. rewrite Ee. cbn [bind].
  eexists _, (fun n d => nth (d * np + n) (map fmt xs) 0%R), V. split; [reflexivity|]. split; [|split; [|split]].
  - rewrite <- (app_nil_r (geo_text _ _ _ _)). apply text_lists; [rewrite map_length; lia|lia|]. intros c v Hc' Hv. destruct (Hcs c v Hc' Hv) as (q & _ & _ & E). apply (HV c v q E).
  - intros c v Hc' Hv. destruct (Hcs c v Hc' Hv) as (q & Hq & _ & E). rewrite (proj2 (HV c v q E)). exact Hq.
  - intros i j k Hi' Hj' Hk'.
    assert (G : forall d x, d < 3 -> at_ 3 (b_pt_coords b) (point_of ni nj i j k) d x -> nth (d * np + point_of ni nj i j k) (map fmt xs) 0%R = fmt x).
    { intros d x Hd A. assert (Pn : point_of ni nj i j k < np) by (unfold point_of, number, np; assert ((i + j * (ni + 1)) < (ni + 1) * (nj + 1)) by nia; nia).
      destruct (Hxs d _ Hd Pn) as (x' & A' & E). rewrite <- (at_inj _ _ _ _ _ _ A A') in E. apply nth_error_nth. rewrite nth_error_map, E. reflexivity. }
    destruct (Hp i j k Hi' Hj' Hk') as (P0 & P1 & P2). split; [apply (G 0); [lia|exact P0]|]. split; [apply (G 1); [lia|exact P1]|apply (G 2); [lia|exact P2]].
  - intros i j k v Hi' Hj' Hk' Hv. specialize (Hc i j k v Hi' Hj' Hk' Hv). destruct (fe_corner v) as [[a' b'] c'].
    assert (Cn : cell_of ni nj i j k < nc) by (unfold cell_of, number, nc; assert ((i + j * ni) < ni * nj) by nia; nia).
    destruct (Hcs _ v Cn Hv) as (q & _ & A & E). assert (Q := at_inj _ _ _ _ _ _ A Hc). rewrite (proj2 (HV _ v q E)). lia.
Qed.
