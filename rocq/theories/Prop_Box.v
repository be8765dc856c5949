(** C48: the structured box mesh (mesh_tools/box_mesh_creator/meshbox.cpp). *)
From Coq Require Import List Arith ZArith Reals Lia Lra Bool.
Import ListNotations.
Require Import Verif.Base Verif.RBase Verif.NatSum Verif.Model_Box Verif.Spec_Box Verif.Proof_Box Verif.Proof_Box2.
Local Open Scope nat_scope.

Lemma at_inj {A} w (t : list (option A)) r c v v' : at_ w t r c v -> at_ w t r c v' -> v = v'.
Proof. unfold at_. intros H H'. rewrite H in H'. inversion H'. reflexivity. Qed.
Lemma at_lt {A} w (t : list (option A)) r c v n : at_ w t r c v -> length t = n * w -> c < w -> r < n.
Proof. unfold at_. intros H L C. assert (r * w + c < length t) by (apply nth_error_Some; rewrite H; discriminate). nia. Qed.

Lemma INR_pred n : (INR (n + 1) - 1 = INR n)%R.
Proof. rewrite plus_INR. cbn. lra. Qed.
Lemma INR_pos n : 1 <= n -> (0 < INR n)%R.
Proof. intros. apply lt_0_INR. lia. Qed.

(** everything there is to know about a built box *)
Record facts (ni nj nk : nat) (lx ly lz sx sy sz : R) (b : box) : Prop := {
  k_i : 1 <= ni; k_j : 1 <= nj; k_k : 1 <= nk;
  k_pl : length (b_pt_coords b) = (ni + 1) * (nj + 1) * (nk + 1) * 3;
  k_p : forall i j k, i <= ni -> j <= nj -> k <= nk -> at_ 3 (b_pt_coords b) (point_of ni nj i j k) 0 (sx + INR i * (lx / INR ni))%R /\
     at_ 3 (b_pt_coords b) (point_of ni nj i j k) 1 (sy + INR j * (ly / INR nj))%R /\ at_ 3 (b_pt_coords b) (point_of ni nj i j k) 2 (sz + INR k * (lz / INR nk))%R;
  k_cl : length (b_cell_coords b) = ni * nj * nk * 3; k_cpl : length (b_cell_points b) = ni * nj * nk * 8;
  k_c : forall i j k, i < ni -> j < nj -> k < nk ->
    (at_ 3 (b_cell_coords b) (cell_of ni nj i j k) 0 (INR i * (lx / INR ni) + (lx / INR ni) / 2)%R /\ at_ 3 (b_cell_coords b) (cell_of ni nj i j k) 1 (INR j * (ly / INR nj) + (ly / INR nj) / 2)%R /\
     at_ 3 (b_cell_coords b) (cell_of ni nj i j k) 2 (INR k * (lz / INR nk) + (lz / INR nk) / 2)%R) /\
    forall v, v < 8 -> at_ 8 (b_cell_points b) (cell_of ni nj i j k) v (corner_id ni nj (i, j, k) v);
  k_f : finv ni nj nk (box_num_faces (ni + 1) (nj + 1) (nk + 1)) (face_list ni nj nk) (b_num_faces b, b_face_points b, b_face_cells b, b_cell_faces b) }.

Lemma rdiv0 x n : n = 0 -> rdiv x (INR (n + 1) - 1) = Err DivZero.
Proof. intros ->. unfold rdiv. rewrite INR_pred. cbn. destruct (Req_EM_T 0 0); [reflexivity|contradiction]. Qed.
Lemma rdiv1 x n : 1 <= n -> rdiv x (INR (n + 1) - 1) = Ok (x / INR n)%R.
Proof. intros H. unfold rdiv. rewrite INR_pred. pose proof (INR_pos n H). destruct (Req_EM_T (INR n) 0); [lra|reflexivity]. Qed.

Lemma build_ok ni nj nk lx ly lz sx sy sz : 1 <= ni -> 1 <= nj -> 1 <= nk -> exists b, build_box ni nj nk lx ly lz sx sy sz = Ok b /\ facts ni nj nk lx ly lz sx sy sz b.
Proof.
  intros Hi Hj Hk. unfold build_box. rewrite !rdiv1 by assumption. cbn [bind]. cbv zeta.
  destruct (box_faces_ok ni nj nk Hi Hj Hk) as (ffi & s & E1 & E2 & V). rewrite E1. cbn [bind].
  destruct (box_points_ok ni nj nk sx sy sz (lx / INR ni) (ly / INR nj) (lz / INR nk)) as (pts & E3 & L3 & P3). rewrite E3. cbn [bind].
  destruct (box_cells_ok ni nj nk (lx / INR ni) (ly / INR nj) (lz / INR nk)) as (cc & cpl & E4 & L4 & L4' & P4). rewrite E4. cbn [bind].
  rewrite E2. destruct s as [[[n fpl] fcl] cfl]. cbn [bind]. eexists. split; [reflexivity|]. constructor; cbn [b_pt_coords b_cell_coords b_cell_points b_num_faces b_face_points b_face_cells b_cell_faces]; assumption.
Qed.
Lemma build_facts ni nj nk lx ly lz sx sy sz b : build_box ni nj nk lx ly lz sx sy sz = Ok b -> facts ni nj nk lx ly lz sx sy sz b.
Proof.
  intros E. assert (H : 1 <= ni /\ 1 <= nj /\ 1 <= nk).
  { unfold build_box in E. destruct ni as [|ni]; [rewrite rdiv0 in E by reflexivity; discriminate|]. rewrite rdiv1 in E by lia. cbn [bind] in E.
    destruct nj as [|nj]; [rewrite rdiv0 in E by reflexivity; discriminate|]. rewrite rdiv1 in E by lia. cbn [bind] in E.
    destruct nk as [|nk]; [rewrite rdiv0 in E by reflexivity; discriminate|]. lia. }
  destruct (build_ok ni nj nk lx ly lz sx sy sz) as (b' & E' & F); try lia. rewrite E' in E. inversion E. subst. exact F.
Qed.

(** The mesh is built exactly when there is at least one cell in every direction. *)
Theorem C48_builds : forall ni nj nk lx ly lz sx sy sz, (exists b, build_box ni nj nk lx ly lz sx sy sz = Ok b) <-> 1 <= ni /\ 1 <= nj /\ 1 <= nk.
Proof.
  intros. split.
  - intros (b & E). apply build_facts in E. destruct E. auto.
  - intros (Hi & Hj & Hk). destruct (build_ok ni nj nk lx ly lz sx sy sz Hi Hj Hk) as (b & E & _). eauto.
Qed.

(** get_id numbers a grid one-to-one onto 0 .. (size - 1). *)
Theorem C48_numbering : forall a b c,
  (forall i j k, i < a -> j < b -> k < c -> (0 <= get_id (Zn i) (Zn j) (Zn k) (Zn a) (Zn b) < Zn (a * b * c))%Z) /\
  (forall i j k i' j' k', i < a -> j < b -> i' < a -> j' < b ->
     get_id (Zn i) (Zn j) (Zn k) (Zn a) (Zn b) = get_id (Zn i') (Zn j') (Zn k') (Zn a) (Zn b) -> (i, j, k) = (i', j', k')) /\
  (forall m, (0 <= m < Zn (a * b * c))%Z -> exists i j k, i < a /\ j < b /\ k < c /\ get_id (Zn i) (Zn j) (Zn k) (Zn a) (Zn b) = m).
Proof.
  intros a b c. split; [|split].
  - intros i j k Hi Hj Hk. rewrite get_id_nat. pose proof (number_lt a b c i j k Hi Hj Hk). lia.
  - intros i j k i' j' k' Hi Hj Hi' Hj' E. rewrite !get_id_nat in E. apply Nat2Z.inj in E. apply number_inj in E; try assumption. destruct E as (-> & -> & ->). reflexivity.
  - intros m Hm. destruct (number_surj a b c (Z.to_nat m)) as (i & j & k & Hi & Hj & Hk & E); [lia|]. exists i, j, k. rewrite get_id_nat. repeat split; try assumption. rewrite <- E. lia.
Qed.

(** Every point of the uniform grid is recorded, at its number. *)
Theorem C48_points : forall ni nj nk lx ly lz sx sy sz b, build_box ni nj nk lx ly lz sx sy sz = Ok b ->
  length (b_pt_coords b) = (ni + 1) * (nj + 1) * (nk + 1) * 3 /\ all_set (b_pt_coords b) /\
  forall i j k, i <= ni -> j <= nj -> k <= nk ->
    at_ 3 (b_pt_coords b) (point_of ni nj i j k) 0 (sx + INR i * lx / INR ni)%R /\
    at_ 3 (b_pt_coords b) (point_of ni nj i j k) 1 (sy + INR j * ly / INR nj)%R /\
    at_ 3 (b_pt_coords b) (point_of ni nj i j k) 2 (sz + INR k * lz / INR nk)%R.
Proof.
  intros ni nj nk lx ly lz sx sy sz b E. apply build_facts in E. destruct E. split; [assumption|]. split.
  - intros m Hm. rewrite k_pl0 in Hm. destruct (number_surj (ni + 1) (nj + 1) (nk + 1) (m / 3)) as (i & j & k & Hi & Hj & Hk & Em).
    + apply Nat.div_lt_upper_bound; lia.
    + destruct (k_p0 i j k) as (P0 & P1 & P2); try lia. unfold at_, point_of in *. rewrite <- Em in P0, P1, P2.
      pose proof (Nat.div_mod m 3 ltac:(lia)) as D. pose proof (Nat.mod_upper_bound m 3 ltac:(lia)) as U.
      destruct (m mod 3) as [|[|[|r]]] eqn:R; [| | |lia]; [replace m with (m / 3 * 3 + 0) by lia|replace m with (m / 3 * 3 + 1) by lia|replace m with (m / 3 * 3 + 2) by lia]; eauto.
  - intros i j k Hi Hj Hk. destruct (k_p0 i j k Hi Hj Hk) as (P0 & P1 & P2). unfold Rdiv in *. rewrite !Rmult_assoc. auto.
Qed.

(** Every cell has the eight corner points of its box, in the finite element order. *)
Theorem C48_cell_points : forall ni nj nk lx ly lz sx sy sz b, build_box ni nj nk lx ly lz sx sy sz = Ok b ->
  length (b_cell_points b) = ni * nj * nk * 8 /\ all_set (b_cell_points b) /\
  forall i j k v, i < ni -> j < nj -> k < nk -> v < 8 ->
    let '(a, b1, c) := fe_corner v in at_ 8 (b_cell_points b) (cell_of ni nj i j k) v (Z.of_nat (point_of ni nj (i + a) (j + b1) (k + c))).
Proof.
  intros ni nj nk lx ly lz sx sy sz b E. apply build_facts in E. destruct E. split; [assumption|].
  assert (Q : forall i j k v, i < ni -> j < nj -> k < nk -> v < 8 ->
    let '(a, b1, c) := fe_corner v in at_ 8 (b_cell_points b) (cell_of ni nj i j k) v (Z.of_nat (point_of ni nj (i + a) (j + b1) (k + c)))).
  { intros i j k v Hi Hj Hk Hv. destruct (k_c0 i j k Hi Hj Hk) as (_ & C). specialize (C v Hv). unfold corner_id in C. destruct (fe_corner v) as [[a b1] c]. exact C. }
  split; [|exact Q].
  intros m Hm. rewrite k_cpl0 in Hm. destruct (number_surj ni nj nk (m / 8)) as (i & j & k & Hi & Hj & Hk & Em); [apply Nat.div_lt_upper_bound; lia|].
  pose proof (Nat.div_mod m 8 ltac:(lia)) as D. pose proof (Nat.mod_upper_bound m 8 ltac:(lia)) as U.
  specialize (Q i j k (m mod 8) Hi Hj Hk U). destruct (fe_corner (m mod 8)) as [[a b1] c]. unfold at_, cell_of in Q. rewrite <- Em in Q.
  replace (m / 8 * 8 + m mod 8) with m in Q by lia. eauto.
Qed.

(** The recorded cell coordinates are the mean of the cell's eight points less the shift of the box (which is left out). *)
Theorem C48_cell_centre : forall ni nj nk lx ly lz sx sy sz b, build_box ni nj nk lx ly lz sx sy sz = Ok b ->
  forall i j k d, i < ni -> j < nj -> k < nk -> d < 3 ->
  exists (cc : R) (p : nat -> nat) (x : nat -> R), at_ 3 (b_cell_coords b) (cell_of ni nj i j k) d cc /\
    (forall v, v < 8 -> at_ 8 (b_cell_points b) (cell_of ni nj i j k) v (Z.of_nat (p v)) /\ at_ 3 (b_pt_coords b) (p v) d (x v)) /\
    (cc = (x 0%nat + x 1%nat + x 2%nat + x 3%nat + x 4%nat + x 5%nat + x 6%nat + x 7%nat) / 8 - nth d [sx; sy; sz] 0)%R.
Proof.
  intros ni nj nk lx ly lz sx sy sz b E i j k d Hi Hj Hk Hd. apply build_facts in E. destruct E.
  destruct (k_c0 i j k Hi Hj Hk) as ((C0 & C1 & C2) & C).
  set (p := fun v => let '(a, b1, c) := fe_corner v in point_of ni nj (i + a) (j + b1) (k + c)).
  assert (Cp : forall v, v < 8 -> at_ 8 (b_cell_points b) (cell_of ni nj i j k) v (Z.of_nat (p v))).
  { intros v Hv. specialize (C v Hv). unfold corner_id in C. unfold p. destruct (fe_corner v) as [[a b1] c]. exact C. }
  assert (Bd : forall v, let '(a, b1, c) := fe_corner v in i + a <= ni /\ j + b1 <= nj /\ k + c <= nk).
  { intros v. do 8 (destruct v as [|v]; [cbn; lia|]). cbn. lia. }
  destruct d as [|[|[|d]]]; [| | |lia].
  - exists (INR i * (lx / INR ni) + (lx / INR ni) / 2)%R, p, (fun v => let '(a, b1, c) := fe_corner v in (sx + INR (i + a) * (lx / INR ni))%R).
    split; [exact C0|]. split.
    + intros v Hv. split; [apply Cp; exact Hv|]. unfold p. specialize (Bd v). destruct (fe_corner v) as [[a b1] c]. apply k_p0; lia.
    + cbn [fe_corner nth]. rewrite !plus_INR. cbn [INR]. lra.
  - exists (INR j * (ly / INR nj) + (ly / INR nj) / 2)%R, p, (fun v => let '(a, b1, c) := fe_corner v in (sy + INR (j + b1) * (ly / INR nj))%R).
    split; [exact C1|]. split.
    + intros v Hv. split; [apply Cp; exact Hv|]. unfold p. specialize (Bd v). destruct (fe_corner v) as [[a b1] c]. apply k_p0; lia.
    + cbn [fe_corner nth]. rewrite !plus_INR. cbn [INR]. lra.
  - exists (INR k * (lz / INR nk) + (lz / INR nk) / 2)%R, p, (fun v => let '(a, b1, c) := fe_corner v in (sz + INR (k + c) * (lz / INR nk))%R).
    split; [exact C2|]. split.
    + intros v Hv. split; [apply Cp; exact Hv|]. unfold p. specialize (Bd v). destruct (fe_corner v) as [[a b1] c]. apply k_p0; lia.
    + cbn [fe_corner nth]. rewrite !plus_INR. cbn [INR]. lra.
Qed.

(** * faces *)
Lemma shows_of ni nj t n f : (forall v, v < 4 -> at_ 4 t n v (corner_pt ni nj f v)) -> shows ni nj t n f.
Proof. intros H v Hv. specialize (H v Hv). unfold corner_pt in H. destruct (face_corner (f_dir f) v) as [[a b] c]. exact H. Qed.

Lemma shows_inj ni nj nk t n f g : is_face ni nj nk f -> is_face ni nj nk g -> shows ni nj t n f -> shows ni nj t n g -> f = g.
Proof.
  intros Ff Fg Hf Hg.
  assert (Q : forall v, v < 4 -> let '(a, b, c) := face_corner (f_dir f) v in let '(a', b', c') := face_corner (f_dir g) v in point_of ni nj (f_i f + a) (f_j f + b) (f_k f + c) = point_of ni nj (f_i g + a') (f_j g + b') (f_k g + c')).
  { intros v Hv. specialize (Hf v Hv). specialize (Hg v Hv). destruct (face_corner (f_dir f) v) as [[a b] c], (face_corner (f_dir g) v) as [[a' b'] c'].
    apply Nat2Z.inj. exact (at_inj _ _ _ _ _ _ Hf Hg). }
  pose proof (dir_lt _ _ _ _ Ff) as Df. pose proof (dir_lt _ _ _ _ Fg) as Dg.
  pose proof (Q 0 ltac:(lia)) as Q0. pose proof (Q 1 ltac:(lia)) as Q1. clear Q Hf Hg.
  destruct f as [d i j k], g as [d' i' j' k']. unfold is_face in *. cbn [f_dir f_i f_j f_k] in *.
  destruct d as [|[|[|d]]]; [| | |lia]; (destruct d' as [|[|[|d']]]; [| | |lia]); cbn [face_corner] in Q0, Q1;
    apply number_inj in Q0; try lia; apply number_inj in Q1; try lia; f_equal; lia.
Qed.

Lemma face_at ni nj nk lx ly lz sx sy sz b n f : build_box ni nj nk lx ly lz sx sy sz = Ok b -> is_face ni nj nk f -> shows ni nj (b_face_points b) n f ->
  nth_error (face_list ni nj nk) n = Some f.
Proof.
  intros E Ff Hf. apply build_facts in E. destruct E as [_ _ _ _ _ _ _ _ V]. destruct V as [Hid L1 L2 L3 Vp Va Vb Vl Vh]. cbn [fst snd] in *.
  assert (Hn : n < length (face_list ni nj nk)).
  { rewrite face_list_len. pose proof (Hf 0 ltac:(lia)) as H0. destruct (face_corner (f_dir f) 0) as [[x y] z]. apply (at_lt _ _ _ _ _ _ H0 L1). lia. }
  destruct (nth_error (face_list ni nj nk) n) as [g|] eqn:G; [|apply nth_error_None in G; lia]. f_equal.
  apply (shows_inj ni nj nk (b_face_points b) n); [apply face_In; apply nth_error_In in G; exact G|exact Ff| |exact Hf].
  apply shows_of. intros v Hv. apply Vp; assumption.
Qed.

(** The face table lists every face of the grid exactly once, and nothing else; the face counter ends at the number of rows allocated. *)
Theorem C48_faces : forall ni nj nk lx ly lz sx sy sz b, build_box ni nj nk lx ly lz sx sy sz = Ok b ->
  b_num_faces b = box_num_faces (ni + 1) (nj + 1) (nk + 1) /\ b_num_faces b = (ni + 1) * nj * nk + ni * (nj + 1) * nk + ni * nj * (nk + 1) /\
  length (b_face_points b) = b_num_faces b * 4 /\
  (forall n, n < b_num_faces b -> exists f, is_face ni nj nk f /\ shows ni nj (b_face_points b) n f) /\
  (forall f, is_face ni nj nk f -> exists! n, n < b_num_faces b /\ shows ni nj (b_face_points b) n f).
Proof.
  intros ni nj nk lx ly lz sx sy sz b E. pose proof E as E0. apply build_facts in E. destruct E as [_ _ _ _ _ _ _ _ V]. destruct V as [Hid L1 L2 L3 Vp Va Vb Vl Vh]. cbn [fst snd] in *.
  assert (Nf : b_num_faces b = box_num_faces (ni + 1) (nj + 1) (nk + 1)) by (rewrite Hid; apply face_list_len).
  split; [exact Nf|]. split; [rewrite Nf; unfold box_num_faces; rewrite !Nat.add_sub; lia|]. split; [rewrite Nf; exact L1|]. split.
  - intros n Hn. destruct (nth_error (face_list ni nj nk) n) as [g|] eqn:G; [|apply nth_error_None in G; lia]. exists g. split; [apply face_In; apply nth_error_In in G; exact G|].
    apply shows_of. intros v Hv. apply Vp; assumption.
  - intros f Ff. destruct (In_nth_error (face_list ni nj nk) f) as [n G]; [apply face_In; exact Ff|]. exists n. split.
    + split; [rewrite Hid; apply nth_error_Some; rewrite G; discriminate|]. apply shows_of. intros v Hv. apply Vp; assumption.
    + intros m [Hm Sm]. pose proof (face_at ni nj nk lx ly lz sx sy sz b m f E0 Ff Sm) as G'.
      apply (NoDup_nth_error (face_list ni nj nk)); [apply face_NoDup|apply nth_error_Some; rewrite G; discriminate|congruence].
Qed.

(** Each row of the face table has, in its second column, the cell on the positive side and, in its first column, the cell on the negative side, where these cells exist;
    and those cells list the face: the cell ahead at local face d, the cell behind at local face d + 3. *)
Theorem C48_face_cells : forall ni nj nk lx ly lz sx sy sz b, build_box ni nj nk lx ly lz sx sy sz = Ok b ->
  forall n f, is_face ni nj nk f -> shows ni nj (b_face_points b) n f ->
  (forall c, is_cell ni nj nk c -> ahead f c -> at_ 2 (b_face_cells b) n 1 (Z.of_nat (cell_number ni nj c)) /\ at_ 6 (b_cell_faces b) (cell_number ni nj c) (f_dir f) n) /\
  (forall c, is_cell ni nj nk c -> behind f c -> at_ 2 (b_face_cells b) n 0 (Z.of_nat (cell_number ni nj c)) /\ at_ 6 (b_cell_faces b) (cell_number ni nj c) (f_dir f + 3) n).
Proof.
  intros ni nj nk lx ly lz sx sy sz b E n f Ff Sf. pose proof (face_at _ _ _ _ _ _ _ _ _ _ _ _ E Ff Sf) as G.
  apply build_facts in E. destruct E as [_ _ _ _ _ _ _ _ V]. destruct V as [Hid L1 L2 L3 Vp Va Vb Vl Vh]. cbn [fst snd] in *. pose proof (dir_lt _ _ _ _ Ff) as Df. split.
  - intros [[i j] k] Hc A. unfold ahead in A. inversion A; subst. unfold cell_number. split; [apply (Va n f G)|]. apply (Vl n f G).
    unfold ahead_exists. unfold is_cell in Hc. destruct (f_dir f) as [|[|[|d]]]; apply Nat.ltb_lt; lia.
  - intros [[i j] k] Hc A. unfold behind in A.
    assert (B : behind_exists f = true). { unfold behind_exists. unfold step_i, step_j, step_k in A. destruct (f_dir f) as [|[|[|d]]]; [| | |lia]; cbn [Nat.eqb] in A; apply Nat.ltb_lt; lia. }
    assert (Bi : behind_id ni nj f = cell_of ni nj i j k). { unfold behind_id. f_equal; lia. }
    unfold cell_number. rewrite <- Bi. split; [|apply (Vh n f G B)]. rewrite <- behind_ok by assumption. apply (Vb n f G).
Qed.

(** Every cell lists its six faces: entry d is the face at its lower end in direction d, entry d + 3 the one at its upper end. *)
Theorem C48_cell_faces : forall ni nj nk lx ly lz sx sy sz b, build_box ni nj nk lx ly lz sx sy sz = Ok b ->
  length (b_cell_faces b) = ni * nj * nk * 6 /\
  forall i j k d, i < ni -> j < nj -> k < nk -> d < 3 -> exists n m,
    at_ 6 (b_cell_faces b) (cell_of ni nj i j k) d n /\ shows ni nj (b_face_points b) n (Face d i j k) /\
    at_ 6 (b_cell_faces b) (cell_of ni nj i j k) (d + 3) m /\ shows ni nj (b_face_points b) m (Face d (i + step_i d) (j + step_j d) (k + step_k d)).
Proof.
  intros ni nj nk lx ly lz sx sy sz b E. split.
  { apply build_facts in E. destruct E as [_ _ _ _ _ _ _ _ V]. destruct V. cbn [fst snd] in *. assumption. }
  intros i j k d Hi Hj Hk Hd. destruct (C48_faces _ _ _ _ _ _ _ _ _ _ E) as (_ & _ & _ & _ & U).
  assert (F1 : is_face ni nj nk (Face d i j k)). { unfold is_face. cbn [f_dir f_i f_j f_k]. destruct d as [|[|[|d]]]; lia. }
  assert (F2 : is_face ni nj nk (Face d (i + step_i d) (j + step_j d) (k + step_k d))).
  { unfold is_face, step_i, step_j, step_k. cbn [f_dir f_i f_j f_k]. destruct d as [|[|[|d]]]; cbn [Nat.eqb]; lia. }
  destruct (U _ F1) as (n & (_ & S1) & _). destruct (U _ F2) as (m & (_ & S2) & _). exists n, m.
  destruct (C48_face_cells _ _ _ _ _ _ _ _ _ _ E n _ F1 S1) as (A & _). destruct (C48_face_cells _ _ _ _ _ _ _ _ _ _ E m _ F2 S2) as (_ & B).
  destruct (A (i, j, k)) as (_ & A1); [unfold is_cell; auto|reflexivity|].
  destruct (B (i, j, k)) as (_ & B1); [unfold is_cell; auto|unfold behind; cbn; auto|].
  auto.
Qed.

(** At the boundary of the box the missing neighbour is not marked: on the four sides normal to the first two directions it is, except at the ends, the number of an
    existing cell on the opposite side; on the other sides it lies outside the range of cell numbers. *)
Theorem C48_boundary_neighbours : forall ni nj nk lx ly lz sx sy sz b, build_box ni nj nk lx ly lz sx sy sz = Ok b ->
  forall n f, is_face ni nj nk f -> shows ni nj (b_face_points b) n f ->
  let i := f_i f in let j := f_j f in let k := f_k f in
  exists c0 c1, at_ 2 (b_face_cells b) n 0 c0 /\ at_ 2 (b_face_cells b) n 1 c1 /\
  match f_dir f with
  | 0 => (i = 0 -> (1 <= j -> c0 = Z.of_nat (cell_of ni nj (ni - 1) (j - 1) k)) /\ (j = 0 -> 1 <= k -> c0 = Z.of_nat (cell_of ni nj (ni - 1) (nj - 1) (k - 1))) /\ (j = 0 -> k = 0 -> c0 = (-1)%Z)) /\
         (i = ni -> (j + 1 < nj -> c1 = Z.of_nat (cell_of ni nj 0 (j + 1) k)) /\ (j + 1 = nj -> k + 1 < nk -> c1 = Z.of_nat (cell_of ni nj 0 0 (k + 1))) /\ (j + 1 = nj -> k + 1 = nk -> c1 = Z.of_nat (ni * nj * nk)))
  | 1 => (j = 0 -> (1 <= k -> c0 = Z.of_nat (cell_of ni nj i (nj - 1) (k - 1))) /\ (k = 0 -> (c0 < 0)%Z)) /\
         (j = nj -> (k + 1 < nk -> c1 = Z.of_nat (cell_of ni nj i 0 (k + 1))) /\ (k + 1 = nk -> (Z.of_nat (ni * nj * nk) <= c1)%Z))
  | _ => (k = 0 -> (c0 < 0)%Z) /\ (k = nk -> (Z.of_nat (ni * nj * nk) <= c1)%Z)
  end.
Proof.
  intros ni nj nk lx ly lz sx sy sz b E n f Ff Sf. cbv zeta. pose proof (face_at _ _ _ _ _ _ _ _ _ _ _ _ E Ff Sf) as G.
  apply build_facts in E. destruct E as [Hi Hj Hk _ _ _ _ _ V]. destruct V as [Hid L1 L2 L3 Vp Va Vb Vl Vh]. cbn [fst snd] in *.
  exists (Zn (ahead_id ni nj f) - Zn (stride ni nj (f_dir f)))%Z, (Zn (ahead_id ni nj f)).
  split; [apply (Vb n f G)|]. split; [apply (Va n f G)|]. clear Va Vb Vl Vh Vp L1 L2 L3 Hid G Sf.
  destruct f as [d i j k]. unfold is_face in Ff. unfold ahead_id, cell_of, number. cbn [f_dir f_i f_j f_k] in *.
  destruct d as [|[|[|d]]]; [| | |contradiction]; cbn [stride].
  - split; intros ->.
    + split; [|split].
      * intros Hj1. destruct j; [lia|]. replace (S j - 1) with j by lia. nia.
      * intros -> Hk1. destruct k; [lia|]. replace (S k - 1) with k by lia. destruct nj; [lia|]. replace (S nj - 1) with nj by lia. nia.
      * intros -> ->. lia.
    + split; [|split].
      * intros _. nia.
      * intros E1 _. subst nj. nia.
      * intros E1 E2. subst nj nk. nia.
  - split; intros ->.
    + split.
      * intros Hk1. destruct k; [lia|]. replace (S k - 1) with k by lia. destruct nj; [lia|]. replace (S nj - 1) with nj by lia. nia.
      * intros ->. nia.
    + split.
      * intros _. nia.
      * intros E1. subst nk. nia.
  - split; intros ->.
    + assert (i + j * ni < ni * nj) by nia. nia.
    + nia.
Qed.

(** The points of a face run counter-clockwise seen from its positive side: it is a rectangle whose normal (p1 - p0) x (p3 - p0) is a positive multiple of the direction. *)
Theorem C48_face_orientation : forall ni nj nk lx ly lz sx sy sz b, build_box ni nj nk lx ly lz sx sy sz = Ok b -> (0 < lx)%R -> (0 < ly)%R -> (0 < lz)%R ->
  forall n f, is_face ni nj nk f -> shows ni nj (b_face_points b) n f ->
  exists (p : nat -> nat) (x : nat -> nat -> R),
    (forall v, v < 4 -> at_ 4 (b_face_points b) n v (Z.of_nat (p v)) /\ forall c, c < 3 -> at_ 3 (b_pt_coords b) (p v) c (x v c)) /\
    (forall c, c < 3 -> (x 0%nat c + x 2%nat c = x 1%nat c + x 3%nat c)%R) /\
    let u c := (x 1%nat c - x 0%nat c)%R in let w c := (x 3%nat c - x 0%nat c)%R in
    let normal c := (u ((c + 1) mod 3)%nat * w ((c + 2) mod 3)%nat - u ((c + 2) mod 3)%nat * w ((c + 1) mod 3)%nat)%R in
    forall c, c < 3 -> (if c =? f_dir f then (0 < normal c)%R else normal c = 0%R).
Proof.
  intros ni nj nk lx ly lz sx sy sz b E Px Py Pz n f Ff Sf. apply build_facts in E. destruct E as [Hi Hj Hk _ Kp _ _ _ _].
  set (dx := (lx / INR ni)%R) in *. set (dy := (ly / INR nj)%R) in *. set (dz := (lz / INR nk)%R) in *.
  assert (Dx : (0 < dx)%R) by (apply Rdiv_lt_0_compat; [exact Px|apply INR_pos; exact Hi]).
  assert (Dy : (0 < dy)%R) by (apply Rdiv_lt_0_compat; [exact Py|apply INR_pos; exact Hj]).
  assert (Dz : (0 < dz)%R) by (apply Rdiv_lt_0_compat; [exact Pz|apply INR_pos; exact Hk]).
  exists (fun v => let '(a, b, c) := face_corner (f_dir f) v in point_of ni nj (f_i f + a) (f_j f + b) (f_k f + c)).
  exists (fun v c => let '(a, b, e) := face_corner (f_dir f) v in match c with 0 => (sx + INR (f_i f + a) * dx)%R | 1 => (sy + INR (f_j f + b) * dy)%R | _ => (sz + INR (f_k f + e) * dz)%R end).
  destruct f as [d i j k]. pose proof (dir_lt _ _ _ _ Ff) as Df. unfold is_face in Ff. cbn [f_dir f_i f_j f_k] in *. split; [|split].
  - intros v Hv. specialize (Sf v Hv). cbn [f_dir f_i f_j f_k] in Sf.
    destruct (face_corner d v) as [[x y] z] eqn:Fc. split; [exact Sf|].
    assert (B : i + x <= ni /\ j + y <= nj /\ k + z <= nk).
    { destruct d as [|[|[|d]]]; [| | |lia]; (destruct v as [|[|[|[|v]]]]; [| | | |lia]); cbn in Fc; inversion Fc; subst; lia. }
    destruct B as (B1 & B2 & B3). destruct (Kp _ _ _ B1 B2 B3) as (K0 & K1 & K2).
    intros c Hc. destruct c as [|[|[|c]]]; [exact K0|exact K1|exact K2|lia].
  - intros c Hc. destruct d as [|[|[|d]]]; [| | |lia]; (destruct c as [|[|[|c]]]; [| | |lia]); cbn [face_corner]; rewrite !plus_INR; cbn [INR]; lra.
  - intros c Hc. destruct d as [|[|[|d]]]; [| | |lia]; (destruct c as [|[|[|c]]]; [| | |lia]); cbn [face_corner Nat.eqb Nat.add Nat.modulo Nat.divmod fst snd Nat.sub]; rewrite ?plus_INR; cbn [INR]; try nra.
Qed.

(** num_bdy_points is the number of points on the boundary. *)
Theorem C48_boundary_points : forall ni nj nk, 1 <= ni -> 1 <= nj -> 1 <= nk ->
  exists L, NoDup L /\ (forall p, In p L <-> on_boundary ni nj nk p) /\ Zn (length L) = box_num_bdy_points (Zn (ni + 1)) (Zn (nj + 1)) (Zn (nk + 1)).
Proof.
  intros ni nj nk Hi Hj Hk.
  set (inn := fun n i => (0 <? i) && (i <? n)).
  set (bd := fun x : nat * nat * nat => let '(i, j, k) := x in negb (inn ni i && inn nj j && inn nk k)).
  exists (filter bd (grid_list (ni + 1) (nj + 1) (nk + 1))). split; [apply NoDup_filter, grid_NoDup|]. split.
  - intros [[i j] k]. rewrite filter_In, grid_In. unfold bd, on_boundary, inn.
    destruct (Nat.ltb_spec 0 i), (Nat.ltb_spec i ni), (Nat.ltb_spec 0 j), (Nat.ltb_spec j nj), (Nat.ltb_spec 0 k), (Nat.ltb_spec k nk); cbn [andb negb]; split; intros [H5 H6]; split; try lia; try reflexivity; try discriminate H6; exfalso; lia.
  - assert (F : forall l, filter bd l = flat_map (fun x => if bd x then [x] else []) l).
    { induction l as [|x l IH]; cbn; [reflexivity|]. destruct (bd x); cbn; rewrite IH; reflexivity. }
    rewrite F, len_grid.
    assert (S1 : forall n, 1 <= n -> nsum (n + 1) (fun i => b2n (inn n i)) = n - 1).
    { intros n Hn. rewrite Nat.add_1_r. cbn [nsum]. unfold inn at 2. rewrite Nat.ltb_irrefl, andb_false_r. cbn [b2n]. rewrite Nat.add_0_r. clear -Hn.
      assert (forall m, m <= n -> nsum m (fun i => b2n (inn n i)) = m - 1); [|apply H; lia].
      induction m; intros Hm; [reflexivity|]. cbn [nsum]. rewrite IHm by lia. unfold inn. destruct (Nat.ltb_spec m n); [|lia]. destruct (Nat.ltb_spec 0 m); cbn; lia. }
    set (A := nsum (nk + 1) _).
    assert (T : A + (ni - 1) * (nj - 1) * (nk - 1) = (ni + 1) * (nj + 1) * (nk + 1)).
    { assert (Q : nsum (nk + 1) (fun k => nsum (nj + 1) (fun j => nsum (ni + 1) (fun i => b2n (inn ni i && inn nj j && inn nk k)))) = (ni - 1) * (nj - 1) * (nk - 1)).
      { rewrite (nsum_ext (nk + 1) _ (fun k => (ni - 1) * (nj - 1) * b2n (inn nk k))).
        - rewrite nsum_mul_l, S1 by assumption. reflexivity.
        - intros k _. rewrite (nsum_ext (nj + 1) _ (fun j => (ni - 1) * b2n (inn nk k) * b2n (inn nj j))).
          + rewrite nsum_mul_l, S1 by assumption. lia.
          + intros j _. rewrite (nsum_ext (ni + 1) _ (fun i => b2n (inn nk k) * b2n (inn nj j) * b2n (inn ni i))).
            * rewrite nsum_mul_l, S1 by assumption. lia.
            * intros i _. rewrite !b2n_and. lia. }
      rewrite <- Q. unfold A. rewrite <- nsum_plus.
      rewrite (nsum_ext (nk + 1) _ (fun _ => (ni + 1) * (nj + 1))); [rewrite nsum_const; lia|]. intros k _. rewrite <- nsum_plus.
      rewrite (nsum_ext (nj + 1) _ (fun _ => ni + 1)); [rewrite nsum_const; lia|]. intros j _. rewrite <- nsum_plus.
      rewrite (nsum_ext (ni + 1) _ (fun _ => 1)); [rewrite nsum_const; lia|]. intros i _. unfold bd. destruct (inn ni i && inn nj j && inn nk k); reflexivity. }
    unfold box_num_bdy_points. clearbody A. destruct ni as [|ni], nj as [|nj], nk as [|nk]; lia.
Qed.

(** * the Ensight geometry file *)
Lemma blocks {A} (g : nat -> nat -> A) n m : length (flat_map (fun d => map (g d) (seq 0 n)) (seq 0 m)) = m * n /\
  forall d p, d < m -> p < n -> nth_error (flat_map (fun d => map (g d) (seq 0 n)) (seq 0 m)) (d * n + p) = Some (g d p).
Proof.
  induction m as [|m IH]; [split; [reflexivity|intros; lia]|]. destruct IH as (L & N). rewrite seq_S, flat_map_app. cbn [flat_map]. rewrite app_nil_r. split.
  - rewrite app_length, L, map_length, seq_length. cbn. lia.
  - intros d p Hd Hp. destruct (Nat.eq_dec d m) as [->|Nd].
    + rewrite nth_error_app2 by lia. rewrite L. replace (m * n + p - m * n) with p by lia. rewrite nth_error_map.
      rewrite (nth_error_nth' (seq 0 n) 0) by (rewrite seq_length; exact Hp). rewrite seq_nth by exact Hp. reflexivity.
    + rewrite nth_error_app1 by (rewrite L; nia). apply N; [lia|exact Hp].
Qed.
Lemma append_loop {A B} (n : nat) (t : nat -> res A) (val : nat -> A) (h : A -> B) (s : list B) : (forall p, p < n -> t p = Ok (val p)) ->
  loop n (fun p s => do v <- t p; Ok (s ++ [h v])) s = Ok (s ++ map (fun p => h (val p)) (seq 0 n)).
Proof.
  intros H. unfold loop. rewrite loop_from_iter.
  assert (Q : forall l, (forall p, In p l -> p < n) -> forall s, iter l (fun p s => do v <- t p; Ok (s ++ [h v])) s = Ok (s ++ map (fun p => h (val p)) l)).
  { induction l as [|a l IH]; intros Hl s1; cbn; [rewrite app_nil_r; reflexivity|]. rewrite H by (apply Hl; left; reflexivity). cbn [bind]. rewrite IH by (intros; apply Hl; right; assumption).
    rewrite <- app_assoc. reflexivity. }
  apply Q. intros p Hp. apply in_seq in Hp. lia.
Qed.
Lemma append_loop2 {A B} (m n : nat) (t : nat -> nat -> res A) (val : nat -> nat -> A) (h : A -> B) : (forall d p, d < m -> p < n -> t d p = Ok (val d p)) ->
  loop m (fun d s => loop n (fun p s => do v <- t d p; Ok (s ++ [h v])) s) [] = Ok (flat_map (fun d => map (fun p => h (val d p)) (seq 0 n)) (seq 0 m)).
Proof.
  intros H. unfold loop at 1. rewrite loop_from_iter.
  assert (Q : forall l, (forall d, In d l -> d < m) -> forall s, iter l (fun d s => loop n (fun p s => do v <- t d p; Ok (s ++ [h v])) s) s = Ok (s ++ flat_map (fun d => map (fun p => h (val d p)) (seq 0 n)) l)).
  { induction l as [|a l IH]; intros Hl s1; cbn; [rewrite app_nil_r; reflexivity|]. rewrite (append_loop n (t a) (val a)) by (intros; apply H; [apply Hl; left; reflexivity|assumption]). cbn [bind].
    rewrite IH by (intros; apply Hl; right; assumption). rewrite <- app_assoc. reflexivity. }
  apply Q. intros p Hp. apply in_seq in Hp. lia.
Qed.
Lemma at_getu {A} w (t : list (option A)) r c v : at_ w t r c v -> getu t (r * w + c) = Ok v.
Proof. unfold at_, getu, get. intros ->. reflexivity. Qed.
Lemma all_at {A} w (t : list (option A)) r c n : all_set t -> length t = n * w -> r < n -> c < w -> exists v, at_ w t r c v.
Proof. intros H L Hr Hc. apply H. rewrite L. nia. Qed.
Lemma val_of {A} w (t : list (option A)) n (d : A) : all_set t -> length t = n * w -> forall r c, r < n -> c < w -> at_ w t r c (match getu t (r * w + c) with Ok v => v | Err _ => d end).
Proof. intros H L r c Hr Hc. destruct (all_at w t r c n H L Hr Hc) as (v & Hv). rewrite (at_getu _ _ _ _ _ Hv). exact Hv. Qed.

(** The geometry file has all first, all second, all third coordinates in point order, then the points of every cell, numbered from 1. *)
Theorem C48_ensight : forall ni nj nk lx ly lz sx sy sz b, build_box ni nj nk lx ly lz sx sy sz = Ok b ->
  let np := (ni + 1) * (nj + 1) * (nk + 1) in let nc := ni * nj * nk in
  exists xs cs, ensight_geo np nc b = Ok (xs, cs) /\ length xs = 3 * np /\ length cs = nc * 8 /\
    (forall d p, d < 3 -> p < np -> exists x, at_ 3 (b_pt_coords b) p d x /\ nth_error xs (d * np + p) = Some x) /\
    (forall c v, c < nc -> v < 8 -> exists q, q < np /\ at_ 8 (b_cell_points b) c v (Z.of_nat q) /\ nth_error cs (c * 8 + v) = Some (Z.of_nat q + 1)%Z).
Proof.
  intros ni nj nk lx ly lz sx sy sz b E. cbv zeta. destruct (C48_points _ _ _ _ _ _ _ _ _ _ E) as (Lp & Sp & _). destruct (C48_cell_points _ _ _ _ _ _ _ _ _ _ E) as (Lc & Sc & Pc).
  set (np := (ni + 1) * (nj + 1) * (nk + 1)) in *. set (nc := ni * nj * nk) in *. unfold ensight_geo.
  set (xv := fun d p => match getu (b_pt_coords b) (p * 3 + d) with Ok v => v | Err _ => 0%R end).
  set (cv := fun c v => match getu (b_cell_points b) (c * 8 + v) with Ok v => v | Err _ => 0%Z end).
  assert (Xa : forall d p, d < 3 -> p < np -> at_ 3 (b_pt_coords b) p d (xv d p)) by (intros; unfold xv; apply (val_of 3 _ np); assumption).
  assert (Ca : forall c v, c < nc -> v < 8 -> at_ 8 (b_cell_points b) c v (cv c v)) by (intros; unfold cv; apply (val_of 8 _ nc); assumption).
  rewrite (append_loop2 3 np (fun d p => getu (b_pt_coords b) (p * 3 + d)) xv (fun v => v)) by (intros; apply at_getu; apply Xa; assumption). cbn [bind].
  rewrite (append_loop2 nc 8 (fun c v => getu (b_cell_points b) (c * 8 + v)) cv (fun p => (p + 1)%Z)) by (intros; apply at_getu; apply Ca; assumption). cbn [bind].
  eexists _, _. split; [reflexivity|].
  destruct (blocks (fun d p => xv d p) np 3) as (L1 & N1). destruct (blocks (fun c v => (cv c v + 1)%Z) 8 nc) as (L2 & N2).
  split; [exact L1|]. split; [exact L2|]. split.
  - intros d p Hd Hp. exists (xv d p). split; [apply Xa; assumption|apply N1; assumption].
  - intros c v Hc Hv. destruct (number_surj ni nj nk c) as (i & j & k & Hi & Hj & Hk & Ec); [exact Hc|]. specialize (Pc i j k v Hi Hj Hk Hv).
    assert (B : let '(a, b1, e) := fe_corner v in a <= 1 /\ b1 <= 1 /\ e <= 1) by (do 8 (destruct v as [|v]; [cbn; lia|]); lia).
    destruct (fe_corner v) as [[a b1] e]. unfold cell_of in Pc. rewrite <- Ec in Pc. exists (point_of ni nj (i + a) (j + b1) (k + e)).
    split; [apply number_lt; lia|]. split; [exact Pc|]. rewrite N2 by assumption. rewrite (at_inj _ _ _ _ _ _ (Ca c v Hc Hv) Pc). reflexivity.
Qed.

(** * non-vacuity: a box of 2 x 3 x 4 cells *)
Example C48_nonvacuous : exists b, build_box 2 3 4 10 10 100 0 0 0 = Ok b /\ b_num_faces b = 3 * 3 * 4 + 2 * 4 * 4 + 2 * 3 * 5 /\
  is_face 2 3 4 (Face 0 0 1 2) /\ is_face 2 3 4 (Face 1 1 3 2) /\ on_boundary 2 3 4 (2, 1, 1).
Proof.
  destruct (build_ok 2 3 4 10 10 100 0 0 0) as (b & E & F); try lia. exists b. split; [exact E|]. destruct (C48_faces _ _ _ _ _ _ _ _ _ _ E) as (_ & N & _). rewrite N. split; [reflexivity|].
  unfold is_face, on_boundary. cbn. lia.
Qed.

Print Assumptions C48_builds.
Print Assumptions C48_numbering.
Print Assumptions C48_points.
Print Assumptions C48_cell_points.
Print Assumptions C48_cell_centre.
Print Assumptions C48_faces.
Print Assumptions C48_face_cells.
Print Assumptions C48_cell_faces.
Print Assumptions C48_boundary_neighbours.
Print Assumptions C48_face_orientation.
Print Assumptions C48_boundary_points.
Print Assumptions C48_ensight.
