(** refine_mesh: points, keys, nodes and cells. *)
From Coq Require Import Reals List Arith ZArith Lra Lia.
Import ListNotations.
Require Import Verif.Base Verif.RBase Verif.RSum Verif.Spec_Lagrange Verif.Lagrange_Math Verif.Model_Quad Verif.Proof_Quad3 Verif.Model_Geom Verif.Proof_Geom Verif.Proof_Tri Verif.Model_Refine Verif.Proof_Refine Verif.Prop_Refine
  Verif.Model_Vtk Verif.Model_High Verif.Spec_Quad Verif.Spec_High Verif.Proof_Lob Verif.Proof_Box Verif.Proof_Blas Verif.Proof_High Verif.Proof_High2 Verif.Proof_High3 Verif.Model_Full Verif.Spec_Full.
Local Open Scope nat_scope.

Lemma pts1_model p : num_g_pts_1d p = pts1 p.
Proof. destruct p; reflexivity. Qed.
Lemma sub1_model p : num_sub_1d p = Spec_Full.sub1 p.
Proof. unfold num_sub_1d, Spec_Full.sub1, pts1. destruct p; [reflexivity|]. destruct (Nat.eqb_spec (S p) 0); lia. Qed.
Lemma pts1_sub p : pts1 p = Spec_Full.sub1 p + 1 /\ 1 <= Spec_Full.sub1 p.
Proof. unfold Spec_Full.sub1, pts1. destruct p; lia. Qed.
Lemma pts1_range p : p <= 9 -> 2 <= pts1 p <= 20.
Proof. unfold pts1. destruct p; lia. Qed.

(** * the trilinear map *)
Lemma tri_geo init q : tri_map init q = field3 2 (vertex1 1) init (q 0) (q 1) (q 2).
Proof.
  unfold tri_map, tri_basis, ref_vert, field3, phi3, ell, vertex1. cbn. field.
Qed.

(** * vertex arrays *)
Lemma init_arrays_ok m N X e vx vy vz : cdescribes m N X -> e < cm_cells m -> length vx = 8 -> length vy = 8 -> length vz = 8 ->
  exists vx' vy' vz', init_arrays m e (vx, vy, vz) = Ok (vx', vy', vz') /\
    filled 8 vx' (fun v => X (N e v) 0) /\ filled 8 vy' (fun v => X (N e v) 1) /\ filled 8 vz' (fun v => X (N e v) 2).
Proof.
  intros (HN & HX) He Lx Ly Lz. unfold init_arrays.
  set (Q := fun d n (l : list (option R)) => length l = 8 /\ forall v, v < n -> nth_error l v = Some (Some (X (N e v) d))).
  edestruct (loop_inv (fun n '(vx, vy, vz) => Q 0 n vx /\ Q 1 n vy /\ Q 2 n vz) 8) as (((vx', vy'), vz') & E & H0 & H1 & H2).
  3:{ exists vx', vy', vz'. split; [exact E|]. auto. }
  - repeat split; try assumption; intros; lia.
  - intros v ((wx, wy), wz) Hv (H0 & H1 & H2). cbn beta iota.
    destruct (HN e v He Hv) as (-> & Hn). cbn [bind]. rewrite !HX by (exact Hn || lia). cbn [bind].
    rewrite !set_ok by (destruct H0, H1, H2; lia). cbn [bind]. eexists. split; [reflexivity|]. cbn beta iota.
    assert (W : forall d l, Q d v l -> Q d (S v) (upd l v (Some (X (N e v) d)))).
    { intros d l (L & G). split; [rewrite upd_length; exact L|]. intros u Hu. rewrite upd_nth by lia. destruct (Nat.eqb_spec u v) as [->|]; [reflexivity|apply G; lia]. }
    auto.
Qed.
Lemma tri_map_ext init init' q : (forall v, v < 8 -> init v = init' v) -> tri_map init q = tri_map init' q.
Proof. intros H. rewrite !tri_map_sum. apply rsum_ext. intros v Hv. rewrite H by exact Hv. reflexivity. Qed.

(** * Lobatto array *)
Lemma lob_array_full n1 : 1 <= n1 <= 20 -> exists a, lobatto_nodes_1D_tmp (repeat None n1) (Z.of_nat n1) = Ok a /\
  forall i, i < n1 -> getu a i = Ok (lob n1 i).
Proof.
  intros Hp. unfold lobatto_nodes_1D_tmp. rewrite swage_same.
  destruct (stores_wrote n1 (repeat None n1) _ (lob_len n1 Hp) ltac:(rewrite repeat_length; lia)) as (a & E & _ & W).
  exists a. split; [exact E|]. intros i Hi. apply getu_some. rewrite W, ltb_t by exact Hi. reflexivity.
Qed.

Lemma tri_pos_at p N X e i j k d : let n1 := pts1 p in i < n1 -> j < n1 -> k < n1 ->
  tri_pos p N X (e * n1 ^ 3 + (i + j * n1 + k * n1 * n1)) d = geo 1 N X e d (lob n1 i) (lob n1 j) (lob n1 k).
Proof.
  intros n1 Hi Hj Hk. unfold tri_pos. cbv zeta. fold n1.
  assert (L : i + j * n1 + k * n1 * n1 < n1 ^ 3) by (apply grid3_lt; assumption).
  rewrite loop_nat_split by exact L. rewrite !grid_elem by lia. destruct (grid_at n1 i j k Hi Hj Hk) as (-> & -> & ->). reflexivity.
Qed.

(** * the points *)
Theorem refine_points_ok p m N X : p <= 9 -> cdescribes m N X ->
  exists pts, refine_points p m = Ok pts /\
    forall g d, g < cm_cells m * pts1 p ^ 3 -> d < 3 -> getu pts (g * 3 + d) = Ok (tri_pos p N X g d).
Proof.
  intros Hp HM. unfold refine_points. cbv zeta. rewrite pts1_model. set (n1 := pts1 p). set (ng := n1 ^ 3). set (ne := cm_cells m).
  assert (R1 := pts1_range p Hp). fold n1 in R1.
  assert (Eg : ng = n1 * n1 * n1) by (unfold ng; cbn [Nat.pow]; ring).
  destruct (lob_array_full n1 ltac:(lia)) as (a & -> & Ga). cbn [bind].
  set (filledp := fun n (pts : list (option R)) => length pts = ne * ng * 3 /\ forall g d, g < n -> d < 3 -> nth_error pts (g * 3 + d) = Some (Some (tri_pos p N X g d))).
  match goal with |- exists pts, bind (loop ?N ?B ?S0) _ = _ /\ _ => set (body := B); set (s0 := S0) end.
  assert (Main : exists s, loop ne body s0 = Ok s /\ let '(pts, _, _, _, _) := s in filledp (ne * ng) pts).
  { edestruct (loop_inv (fun e (s : list (option R) * list (option R) * list (option R) * list (option R) * nat) =>
      let '(pts, vx, vy, vz, count) := s in filledp (e * ng) pts /\ length vx = 8 /\ length vy = 8 /\ length vz = 8 /\ count = e * ng) ne body s0) as (s & Es & Hs).
    3:{ exists s. split; [exact Es|]. destruct s as ((((pts, vx), vy), vz), count). apply Hs. }
    - unfold s0, filledp. rewrite !repeat_length. split; [|repeat split]. split; [reflexivity|]. intros g d Hg. exfalso. cbn in Hg. lia.
    - intros e ((((pts, vx), vy), vz), count) He (Fp & Lx & Ly & Lz & Ec). unfold body. cbn beta iota.
      destruct (init_arrays_ok m N X e vx vy vz HM He Lx Ly Lz) as (vx' & vy' & vz' & -> & Fx & Fy & Fz). cbn [bind]. clear vx vy vz Lx Ly Lz.
      set (I := fun q (s : list (option R) * list (option R) * list (option R) * list (option R) * nat) =>
         let '(pts, vx, vy, vz, count) := s in filledp (e * ng + q) pts /\ vx = vx' /\ vy = vy' /\ vz = vz' /\ count = e * ng + q).
      edestruct (loop_inv (fun k s => I (k * n1 * n1) s) n1) as (s & Es & Hs).
      3:{ exists s. split; [exact Es|]. destruct s as ((((pts', vx), vy), vz), count'). destruct Hs as (F & -> & -> & -> & Ec').
          replace (S e * ng) with (e * ng + n1 * n1 * n1) by lia. destruct Fx as (Fx & _), Fy as (Fy & _), Fz as (Fz & _). auto. }
      + unfold I. cbn [Nat.mul]. rewrite Nat.add_0_r. auto.
      + intros k s Hk Hs. edestruct (loop_inv (fun j s => I (k * n1 * n1 + j * n1) s) n1) as (s' & Es & Hs').
        3:{ exists s'. split; [exact Es|]. cbn beta in Hs' |- *. replace (S k * n1 * n1) with (k * n1 * n1 + n1 * n1) by lia. exact Hs'. }
        { cbn [Nat.mul]. rewrite Nat.add_0_r. exact Hs. }
        clear s Hs. intros j s Hj Hs. edestruct (loop_inv (fun i s => I (k * n1 * n1 + j * n1 + i) s) n1) as (s' & Es & Hs').
        3:{ exists s'. split; [exact Es|]. cbn beta in Hs' |- *. replace (k * n1 * n1 + S j * n1) with (k * n1 * n1 + j * n1 + n1) by lia. exact Hs'. }
        { rewrite Nat.add_0_r. exact Hs. }
        clear s Hs. intros i ((((pts1, wx), wy), wz), count1) Hi (F1 & -> & -> & -> & ->). cbn beta iota.
        rewrite !Ga by assumption. cbn [bind].
        set (q := fun d : nat => match d with 0 => lob n1 i | 1 => lob n1 j | _ => lob n1 k end).
        set (g := e * ng + (k * n1 * n1 + j * n1 + i)).
        assert (Pos : forall d w, filled 8 w (fun v => X (N e v) d) -> tri_map (ptr w) q = tri_pos p N X g d).
        { intros d w Fw. replace g with (e * n1 ^ 3 + (i + j * n1 + k * n1 * n1)) by (unfold g, ng; ring). unfold n1. rewrite tri_pos_at by assumption. fold n1.
          rewrite (tri_map_ext _ (fun v => X (N e v) d)) by (intros v Hv; exact (ptr_filled 8 _ _ v Fw Hv)).
          rewrite tri_geo. reflexivity. }
        rewrite (Pos 0 _ Fx), (Pos 1 _ Fy), (Pos 2 _ Fz). clear Pos.
        destruct F1 as (L1 & G1). fold g in G1.
        assert (Lq : k * n1 * n1 + j * n1 + i < ng) by (rewrite Eg; nia).
        assert (Hg : g < ne * ng) by (unfold g; nia).
        rewrite !set_ok by (rewrite ?upd_length; lia). cbn [bind].
        rewrite !set_ok by (rewrite ?upd_length; lia). cbn [bind].
        rewrite !set_ok by (rewrite ?upd_length; lia). cbn [bind].
        eexists. split; [reflexivity|]. unfold I. cbn beta iota. split; [|repeat split; lia].
        split; [rewrite !upd_length; exact L1|].
        intros g' d Hg' Hd. rewrite !upd_nth by (rewrite ?upd_length; lia).
        destruct (Nat.eq_dec g' g) as [->|].
        * assert (D : d = 0 \/ d = 1 \/ d = 2) by lia. destruct D as [-> | [-> | ->]];
          repeat match goal with |- context [(?u =? ?v)] => destruct (Nat.eqb_spec u v); try (exfalso; lia) end; reflexivity.
        * repeat match goal with |- context [(?u =? ?v)] => destruct (Nat.eqb_spec u v); try (exfalso; lia) end. apply G1; unfold g in *; lia. }
  destruct Main as (s & -> & Hs). destruct s as ((((pts, vx), vy), vz), count). cbn [bind].
  exists pts. split; [reflexivity|]. destruct Hs as (L & G). intros g d Hg Hd. apply getu_some, G; assumption.
Qed.

(** * coordinate range and spacing *)
Lemma mesh_box_ok big m N X : cdescribes m N X -> exists mx mn, mesh_box big m = Ok (mx, mn) /\
  (forall n d, n < cm_nodes m -> d < 3 -> (mn d <= X n d <= mx d)%R) /\
  (forall d, d < 3 -> mn d = big \/ exists n, n < cm_nodes m /\ mn d = X n d) /\
  (forall d, d < 3 -> mx d = (- big)%R \/ exists n, n < cm_nodes m /\ mx d = X n d).
Proof.
  intros (_ & HX). unfold mesh_box.
  set (Q := fun v (s : (nat -> R) * (nat -> R)) => (forall n d, n < v -> d < 3 -> (snd s d <= X n d <= fst s d)%R)).
  set (A := fun (s : (nat -> R) * (nat -> R)) => forall d, d < 3 -> snd s d = big \/ exists n, n < cm_nodes m /\ snd s d = X n d).
  set (B := fun (s : (nat -> R) * (nat -> R)) => forall d, d < 3 -> fst s d = (- big)%R \/ exists n, n < cm_nodes m /\ fst s d = X n d).
  edestruct (loop_inv (fun v s => Q v s /\ A s /\ B s) (cm_nodes m)) as ((mx, mn) & E & H & HA & HB).
  3:{ exists mx, mn. split; [exact E|]. split; [exact H|]. split; [exact HA|exact HB]. }
  - split; [intros n d Hn; lia|]. split; intros d Hd; left; reflexivity.
  - intros v s Hv (H & HA & HB).
    destruct (loop_inv (fun i (s : (nat -> R) * (nat -> R)) => Q v s /\ A s /\ B s /\
       forall d, d < i -> (snd s d <= X v d <= fst s d)%R) 3 (fun d '(mx, mn) => do x <- cm_coord m v d; Ok (fset mx d (Rmax (mx d) x), fset mn d (Rmin (mn d) x))) s) as (s' & E' & H1 & HA' & HB' & H2).
    + split; [exact H|]. split; [exact HA|]. split; [exact HB|intros; lia].
    + intros i (mx, mn) Hi (H1 & A1 & B1 & H2). cbn beta iota. rewrite HX by assumption. cbn [bind]. eexists. split; [reflexivity|]. unfold Q, A, B in *. cbn [fst snd] in *.
      unfold fset. assert (C1 := Rmax_l (mx i) (X v i)). assert (C2 := Rmax_r (mx i) (X v i)). assert (C3 := Rmin_l (mn i) (X v i)). assert (C4 := Rmin_r (mn i) (X v i)).
      split; [|split; [|split]].
      * intros n d Hn Hd. specialize (H1 n d Hn Hd). destruct (Nat.eqb_spec d i) as [->|]; lra.
      * intros d Hd. destruct (Nat.eqb_spec d i) as [->|]; [|apply A1; exact Hd]. destruct (Rle_dec (mn i) (X v i)) as [L|L].
        -- rewrite Rmin_left by exact L. apply A1. exact Hd.
        -- rewrite Rmin_right by lra. right. exists v. auto.
      * intros d Hd. destruct (Nat.eqb_spec d i) as [->|]; [|apply B1; exact Hd]. destruct (Rle_dec (X v i) (mx i)) as [L|L].
        -- rewrite Rmax_left by exact L. apply B1. exact Hd.
        -- rewrite Rmax_right by lra. right. exists v. auto.
      * intros d Hd. destruct (Nat.eqb_spec d i) as [->|]; [lra|]. apply H2. lia.
    + exists s'. split; [exact E'|]. split; [|split; [exact HA'|exact HB']]. intros n d Hn Hd. destruct (Nat.eq_dec n v) as [->|]; [apply H2; exact Hd|apply H1; [lia|exact Hd]].
Qed.

Lemma cell_verts_ok m N X c : cdescribes m N X -> c < cm_cells m -> exists v, cell_verts m c = Ok v /\ forall l d, l < 8 -> d < 3 -> v l d = X (N c l) d.
Proof.
  intros (HN & HX) Hc. unfold cell_verts.
  edestruct (loop_inv (fun n (v : nat -> nat -> R) => forall l d, l < n -> d < 3 -> v l d = X (N c l) d) 8) as (v & E & H).
  3:{ exists v. split; [exact E|exact H]. }
  - intros; lia.
  - intros l v Hl H. destruct (HN c l Hc Hl) as (En & Hn).
    edestruct (loop_inv (fun j (v : nat -> nat -> R) => (forall l' d, l' < l -> d < 3 -> v l' d = X (N c l') d) /\ forall d, d < j -> v l d = X (N c l) d) 3) as (v' & E' & H1 & H2).
    3:{ exists v'. split; [exact E'|]. intros l' d Hl' Hd. destruct (Nat.eq_dec l' l) as [->|]; [apply H2; exact Hd|apply H1; [lia|exact Hd]]. }
    + split; [exact H|intros; lia].
    + intros j v1 Hj (A & B). cbn beta. rewrite En. cbn [bind]. rewrite HX by assumption. cbn [bind]. eexists. split; [reflexivity|]. unfold fset. split.
      * intros l' d Hl' Hd. destruct (Nat.eqb_spec l' l); [lia|]. apply A; assumption.
      * intros d Hd. rewrite Nat.eqb_refl. destruct (Nat.eqb_spec d j) as [->|]; [reflexivity|]. apply B. lia.
Qed.

Lemma last_dist_ok start m N X ne : cdescribes m N X -> cm_cells m = S ne ->
  exists v, (forall l d, l < 8 -> d < 3 -> v l d = X (N ne l) d) /\ last_dist start m = Ok (cell_dist_min (start v) v).
Proof.
  intros HM Ec. unfold last_dist. rewrite Ec. 
  assert (G : forall k, k <= S ne -> exists d, loop k (fun c _ => do v <- cell_verts m c; Ok (Some (cell_dist_min (start v) v))) None = Ok d /\
     (0 < k -> exists v, (forall l d, l < 8 -> d < 3 -> v l d = X (N (k - 1) l) d) /\ d = Some (cell_dist_min (start v) v))).
  { intros k Hk. edestruct (loop_inv (fun k (d : option R) => 0 < k -> exists v, (forall l d, l < 8 -> d < 3 -> v l d = X (N (k - 1) l) d) /\ d = Some (cell_dist_min (start v) v)) k) as (d & E & H).
    3:{ exists d. split; [exact E|exact H]. }
    - lia.
    - intros c d Hc _. destruct (cell_verts_ok m N X c HM ltac:(lia)) as (v & -> & Hv). cbn [bind]. eexists. split; [reflexivity|]. intros _. exists v.
      split; [|reflexivity]. replace (S c - 1) with c by lia. exact Hv. }
  destruct (G (S ne) (le_n _)) as (d & -> & H). cbn [bind]. destruct (H ltac:(lia)) as (v & Hv & ->). exists v. replace (S ne - 1) with ne in Hv by lia. auto.
Qed.

Lemma least_dist_ext v v' m : (forall l d, l < 8 -> d < 3 -> v l d = v' l d) -> least_dist v m -> least_dist v' m.
Proof.
  intros H (A & (a & b & Ha & Hb & Ne & E)). split.
  - intros a' b' Ha' Hb' Ne'. rewrite <- !H by (assumption || lia). apply A; assumption.
  - exists a, b. repeat (split; [assumption|]). rewrite <- !H by (assumption || lia). exact E.
Qed.
(** the spacing is the least corner distance of the last cell, if at most the start value *)
Lemma last_dist_spec start m N X ne d : cdescribes m N X -> cm_cells m = S ne -> corner_spacing N X ne d ->
  (forall v, (forall l d, l < 8 -> d < 3 -> v l d = X (N ne l) d) -> exists a b, a < 8 /\ b < 8 /\ a <> b /\ (node_dist v a b <= start v)%R) ->
  last_dist start m = Ok d.
Proof.
  intros HM Ec HD HS. destruct (last_dist_ok start m N X ne HM Ec) as (v & Hv & ->). f_equal.
  assert (L := cell_dist_min_spec (start v) v (HS v Hv)). apply (least_dist_ext _ _ _ Hv) in L.
  exact (least_dist_unique (fun l d => X (N ne l) d) _ _ L HD).
Qed.

(** * keys *)
Lemma sub_max p : (if Nat.eqb p 0 then 1 else INR p)%R = INR (Nat.max 1 p).
Proof. destruct p as [|p]; [reflexivity|]. replace (Nat.max 1 (S p)) with (S p) by lia. reflexivity. Qed.
Lemma max1_pos p : (1 <= INR (Nat.max 1 p))%R.
Proof. change 1%R with (INR 1). apply le_INR. lia. Qed.

Lemma refine_keys_ok p m N X pts d ne : let ng := pts1 p ^ 3 in
  cdescribes m N X -> cm_cells m = S ne -> corner_spacing N X ne d -> (0 < d <= 10 ^ 64)%R ->
  (forall g i, g < cm_cells m * ng -> i < 3 -> getu pts (g * 3 + i) = Ok (tri_pos p N X g i)) ->
  exists ks mx mn, refine_keys p m pts = Ok ks /\ length ks = cm_cells m * ng /\
    (forall n i, n < cm_nodes m -> i < 3 -> (mn i <= X n i <= mx i)%R) /\
    (forall i, i < 3 -> mn i = (10 ^ 16)%R \/ exists n, n < cm_nodes m /\ mn i = X n i) /\
    forall g, g < cm_cells m * ng -> refine_key (node_bin p d) mn mx (tri_pos p N X g) = Ok (Z.of_nat (nth g ks 0)).
Proof.
  intros ng HM Ec HL Hd HP. unfold refine_keys.
  destruct (mesh_box_ok (10 ^ 16) m N X HM) as (mx & mn & -> & Hb & Hba & _). cbn [bind].
  rewrite (last_dist_spec _ m N X ne d HM Ec HL).
  2:{ intros v Hv. destruct HL as (_ & (a & b & Ha & Hb' & Ne & E)). exists a, b. repeat (split; [assumption|]). rewrite node_dist_eq, !Hv by (assumption || lia). rewrite <- E. apply Hd. }
  cbn [bind]. cbv zeta. rewrite sub_max, pts1_model. fold (node_bin p d). fold ng.
  assert (M1 := max1_pos p). assert (Hh : (0 < node_bin p d)%R) by (unfold node_bin; apply Rdiv_lt_0_compat; lra).
  destruct (high_bins_ok _ mx mn Hh) as (b & -> & Eb). cbn [bind].
  rewrite (Nat.mul_comm ng).
  edestruct (loop_inv (fun n (ks : list nat) => length ks = n /\ forall g, g < n -> refine_key (node_bin p d) mn mx (tri_pos p N X g) = Ok (Z.of_nat (nth g ks 0)))
    (cm_cells m * ng)) as (ks & E & L & H).
  3:{ exists ks, mx, mn. split; [exact E|]. auto. }
  - split; [reflexivity|intros; lia].
  - intros g ks Hg (L & H). cbn beta.
    destruct (high_key_ok _ mx mn b pts g (tri_pos p N X g) Hh Eb) as (k & -> & Ek); [intros i Hi; apply HP; assumption|]. cbn [bind].
    eexists. split; [reflexivity|]. rewrite app_length, L. split; [cbn; lia|]. intros g' Hg'.
    destruct (Nat.eq_dec g' g) as [->|]; [rewrite app_nth2, L, Nat.sub_diag by lia; exact Ek|]. rewrite app_nth1 by lia. apply H. lia.
Qed.

(** * the refined cells *)
Theorem refine_cells_ok p m N X d ne : let n1 := pts1 p in let ns := Spec_Full.sub1 p in let ng := n1 ^ 3 in
  p <= 9 -> cdescribes m N X -> cm_cells m = S ne -> corner_spacing N X ne d -> (0 < d <= 10 ^ 64)%R ->
  exists r nd own mx mn, refine_cells p m = Ok r /\ let M := rf_mesh r in
    cm_cells M = S ne * (ns * ns * ns) /\ cm_nodes M = mg_num (rf_merged r) /\
    (forall n i, n < cm_nodes m -> i < 3 -> (mn i <= X n i <= mx i)%R) /\
    (forall i, i < 3 -> mn i = (10 ^ 16)%R \/ exists n, n < cm_nodes m /\ mn i = X n i) /\
    (forall g i, g < S ne * ng -> i < 3 -> getu (rf_points r) (g * 3 + i) = Ok (tri_pos p N X g i)) /\
    (forall g, g < S ne * ng -> node_in_gauss (rf_merged r) g = Ok (nd g) /\ nd g < cm_nodes M) /\
    (forall v, v < cm_nodes M -> own v < S ne * ng /\ nd (own v) = v /\ forall i, i < 3 -> cm_coord M v i = Ok (tri_pos p N X (own v) i)) /\
    nd 0 = 0 /\ (forall g, 0 < g < S ne * ng -> nd g <> 0) /\
    (forall g g', 0 < g < S ne * ng -> 0 < g' < S ne * ng ->
       (nd g = nd g' <-> refine_key (node_bin p d) mn mx (tri_pos p N X g) = refine_key (node_bin p d) mn mx (tri_pos p N X g'))) /\
    forall e k j i, e < S ne -> k < ns -> j < ns -> i < ns ->
      cells_in_elem (rf_maps r) ns e (i + j * ns + k * ns * ns) = Ok (cell_id p e i j k) /\
      elems_in_cell (rf_maps r) (cell_id p e i j k) = Ok e /\
      forall c, c < 8 ->
        gauss_in_cell (rf_maps r) (cell_id p e i j k) c = Ok (e * ng + corner_pt p i j k c) /\
        cm_node M (cell_id p e i j k) c = Ok (nd (e * ng + corner_pt p i j k c)).
Proof.
  intros n1 ns ng Hp HM Ec HL Hd.
  destruct (refine_points_ok p m N X Hp HM) as (pts & Epts & Gpts). rewrite Ec in Gpts. fold n1 ng in Gpts.
  destruct (refine_keys_ok p m N X pts d ne HM Ec HL Hd) as (ks & mx & mn & Eks & Lks & Hbox & Hatt & Hkey); [rewrite Ec; exact Gpts|]. rewrite Ec in Lks, Hkey. fold n1 ng in Lks, Hkey.
  assert (R1 := pts1_range p Hp). fold n1 in R1. destruct (pts1_sub p) as (R2 & R3). fold n1 ns in R2, R3.
  assert (Hng : 0 < ng) by (unfold ng; cbn [Nat.pow]; nia).
  assert (Hks : ks <> []) by (intros ->; cbn in Lks; nia).
  destruct (merge_spec ks Hks) as (mg & Emg & M1 & M2 & M3 & M4 & M5). rewrite Lks in M1, M3, M4, M5.
  set (nd := fun g => match node_in_gauss mg g with Ok v => v | Err _ => 0 end).
  assert (End : forall g, g < S ne * ng -> node_in_gauss mg g = Ok (nd g) /\ nd g < mg_num mg).
  { intros g Hg. destruct (M1 g Hg) as (v & Hv & E). unfold nd. rewrite E. auto. }
  set (own := fun v => match gauss_of_node mg v with Ok g => g | Err _ => 0 end).
  assert (Eown : forall v, v < mg_num mg -> gauss_of_node mg v = Ok (own v) /\ own v < S ne * ng /\ nd (own v) = v).
  { intros v Hv. destruct (M5 v Hv) as (g & Hg & E & E'). unfold own. rewrite E. split; [reflexivity|]. split; [exact Hg|]. unfold nd. rewrite E'. reflexivity. }
  destruct (high_coords_ok pts mg (tri_pos p N X) (S ne * ng)) as (cs & Ecs & Hcs); [intros v Hv; exists (own v); destruct (Eown v Hv) as (? & ? & ?); auto|exact Gpts|].
  destruct (refined_maps (S ne) ns n1) as (maps & Emaps & Hmaps).
  destruct (refined_nodes (S ne) ns n1 ks mg) as (nic & Enic & Hnic); [lia|rewrite Lks; unfold ng; cbn [Nat.pow]; lia|exact Emg|].
  eexists {| rf_points := pts; rf_merged := mg; rf_maps := maps; rf_mesh := CMesh (mg_num mg) (S ne * (ns * ns * ns)) cs nic |}, nd, own, mx, mn.
  split; [unfold refine_cells; cbv zeta; rewrite Epts; cbn [bind]; rewrite Eks; cbn [bind]; rewrite Emg; cbn [bind]; rewrite Ecs; cbn [bind]; rewrite Ec, pts1_model, sub1_model; fold n1 ns; rewrite Emaps; cbn [bind]; rewrite Enic; reflexivity|].
  cbn [rf_points rf_merged rf_maps rf_mesh cm_cells cm_nodes cm_coords cm_conn]. cbv zeta.
  split; [reflexivity|]. split; [reflexivity|]. split; [exact Hbox|]. split; [exact Hatt|]. split; [exact Gpts|]. split; [exact End|].
  split; [intros v Hv; destruct (Eown v Hv) as (A & B & C); split; [exact B|]; split; [exact C|]; intros i Hi; apply Hcs; assumption|].
  split; [unfold nd; rewrite M2; reflexivity|].
  split; [intros g Hg E; apply (M3 g Hg); destruct (End g ltac:(lia)) as (-> & _); rewrite E; reflexivity|].
  split.
  - intros g g' Hg Hg'. rewrite !Hkey by lia. specialize (M4 g g' Hg Hg'). destruct (End g ltac:(lia)) as (E & _). destruct (End g' ltac:(lia)) as (E' & _). rewrite E, E' in M4. split.
    + intros Q. f_equal. f_equal. apply M4. f_equal. exact Q.
    + intros Q. injection Q as Q. apply Nat2Z.inj in Q. apply M4 in Q. injection Q. auto.
  - intros e k j i He Hk Hj Hi. destruct (Hmaps e k j i He Hk Hj Hi) as (A & B & C). cbv zeta in A, B, C. unfold cell_id. cbv zeta. fold ns. split; [exact A|]. split; [exact B|].
    intros c Hc. unfold corner_pt. cbv zeta. fold n1. set (l := i + c mod 2 + (j + c / 2 mod 2) * n1 + (k + c / 4) * n1 * n1).
    split; [rewrite C by exact Hc; f_equal; unfold ng, l; cbn [Nat.pow]; ring|].
    destruct (Hnic e k j i c He Hk Hj Hi Hc) as (n & E1 & _ & E2). cbv zeta in E1. unfold cm_node. cbn [cm_conn]. rewrite E1.
    fold l in E2. replace (l + n1 * n1 * n1 * e) with (e * ng + l) in E2 by (unfold ng; cbn [Nat.pow]; ring).
    assert (Hl : l < ng).
    { assert (c mod 2 < 2) by (apply Nat.mod_upper_bound; lia). assert (c / 2 mod 2 < 2) by (apply Nat.mod_upper_bound; lia). assert (c / 4 < 2) by (apply Nat.div_lt_upper_bound; lia).
      unfold l, ng. apply grid3_lt; lia. }
    destruct (End (e * ng + l) ltac:(nia)) as (E3 & _). congruence.
Qed.
