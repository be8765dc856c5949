(** High-order refinement: keys, nodes and connectivity. *)
From Coq Require Import Reals List Arith NArith ZArith Lra Lia.
Import ListNotations.
Require Import Verif.Base Verif.RBase Verif.RSum Verif.Model_Geom Verif.Proof_Geom Verif.Model_Refine Verif.Proof_Refine Verif.Prop_Refine
  Verif.Model_Vtk Verif.Model_High Verif.Spec_Quad Verif.Spec_High Verif.Proof_Box Verif.Proof_Blas Verif.Proof_High.
Local Open Scope nat_scope.

(** * coordinate range *)
Lemma high_box_ok m nl N X : describes m nl N X -> exists mx mn, high_box m = Ok (mx, mn) /\
  (forall n d, n < m_num_nodes m -> d < 3 -> (mn d <= X n d <= mx d)%R) /\
  (forall d, d < 3 -> mn d = NUM_MAX \/ exists n, n < m_num_nodes m /\ mn d = X n d).
Proof.
  intros (_ & HX). unfold high_box.
  set (Q := fun v (s : (nat -> R) * (nat -> R)) => (forall n d, n < v -> d < 3 -> (snd s d <= X n d <= fst s d)%R)).
  set (A := fun (s : (nat -> R) * (nat -> R)) => forall d, d < 3 -> snd s d = NUM_MAX \/ exists n, n < m_num_nodes m /\ snd s d = X n d).
  edestruct (loop_inv (fun v s => Q v s /\ A s) (m_num_nodes m)) as ((mx, mn) & E & H & HA).
  3:{ exists mx, mn. split; [exact E|]. split; [exact H|exact HA]. }
  - split; [intros n d Hn; lia|]. intros d Hd. left. reflexivity.
  - intros v s Hv (H & HA).
    destruct (loop_inv (fun i (s : (nat -> R) * (nat -> R)) => Q v s /\ A s /\
       forall d, d < i -> (snd s d <= X v d <= fst s d)%R) 3 (fun i '(mx, mn) => do x <- node_coords m v i; Ok (fset mx i (Rmax (mx i) x), fset mn i (Rmin (mn i) x))) s) as (s' & E' & H1 & HA' & H2).
    + split; [exact H|]. split; [exact HA|intros; lia].
    + intros i (mx, mn) Hi (H1 & A1 & H2). cbn beta iota. rewrite HX by assumption. cbn [bind]. eexists. split; [reflexivity|]. unfold Q, A in *. cbn [fst snd] in *.
      unfold fset. assert (B1 := Rmax_l (mx i) (X v i)). assert (B2 := Rmax_r (mx i) (X v i)). assert (B3 := Rmin_l (mn i) (X v i)). assert (B4 := Rmin_r (mn i) (X v i)).
      split; [|split].
      * intros n d Hn Hd. specialize (H1 n d Hn Hd). destruct (Nat.eqb_spec d i) as [->|]; lra.
      * intros d Hd. destruct (Nat.eqb_spec d i) as [->|]; [|apply A1; exact Hd]. destruct (Rle_dec (mn i) (X v i)) as [L|L].
        -- rewrite Rmin_left by exact L. apply A1. exact Hd.
        -- rewrite Rmin_right by lra. right. exists v. auto.
      * intros d Hd. destruct (Nat.eqb_spec d i) as [->|]; [lra|]. apply H2. lia.
    + exists s'. split; [exact E'|]. split; [|exact HA']. intros n d Hn Hd. destruct (Nat.eq_dec n v) as [->|]; [apply H2; exact Hd|apply H1; [lia|exact Hd]].
Qed.

(** * distances *)
Lemma high_dist_ok m nl N X e j i : describes m nl N X -> e < m_num_elems m -> j < nl -> i < nl -> high_dist m e j i = Ok (planar X (N e j) (N e i)).
Proof.
  intros (HN & HX) He Hj Hi. unfold high_dist. destruct (HN e j He Hj) as (-> & Hj'). destruct (HN e i He Hi) as (-> & Hi'). cbn [bind].
  rewrite !HX by (assumption || lia). cbn [bind]. unfold planar. f_equal. f_equal. ring.
Qed.

Definition lowest {T} (Q : T -> Prop) (f : T -> R) (s : R) : Prop :=
  (s <= NUM_MAX)%R /\ (forall t, Q t -> (s <= f t)%R) /\ (s = NUM_MAX \/ exists t, Q t /\ s = f t).
Lemma lowest_ext {T} (Q Q' : T -> Prop) f s : (forall t, Q t <-> Q' t) -> lowest Q f s -> lowest Q' f s.
Proof. intros E (A & B & C). split; [exact A|]. split; [intros t Ht; apply B, E, Ht|]. destruct C as [C|(t & Ht & C)]; [left; exact C|right; exists t; split; [apply E, Ht|exact C]]. Qed.
Lemma lowest_add {T} (Q : T -> Prop) f s t0 : lowest Q f s -> lowest (fun t => Q t \/ t = t0) f (Rmin s (f t0)).
Proof.
  intros (A & B & C). assert (M1 := Rmin_l s (f t0)). assert (M2 := Rmin_r s (f t0)). split; [lra|]. split.
  - intros t [Ht| ->]; [specialize (B t Ht); lra|lra].
  - destruct (Rle_dec s (f t0)) as [L|L].
    + rewrite Rmin_left by lra. destruct C as [C|(t & Ht & C)]; [left; exact C|right; exists t; auto].
    + rewrite Rmin_right by lra. right. exists t0. auto.
Qed.

Lemma high_min_dist_ok m nl N X : describes m nl N X -> m_order m + 1 <= nl ->
  exists s, high_min_dist m = Ok s /\
    lowest (fun t : nat * nat * nat => let '(e, j, i) := t in e < m_num_elems m /\ j < i <= m_order m) (fun t => let '(e, j, i) := t in planar X (N e j) (N e i)) s.
Proof.
  intros HM Hnl. unfold high_min_dist. cbv zeta. set (nv1 := m_order m + 1). set (f := fun t : nat * nat * nat => let '(e, j, i) := t in planar X (N e j) (N e i)).
  destruct (loop_inv (fun n s => lowest (fun t : nat * nat * nat => let '(e, j, i) := t in e < n /\ j < i <= m_order m) f s) (m_num_elems m)
     (fun e d => loop nv1 (fun j d => loop_from (j + 1) (nv1 - (j + 1)) (fun i d => do dist <- high_dist m e j i; Ok (Rmin d dist)) d) d) NUM_MAX) as (s & E & H).
  3:{ exists s. split; [exact E|exact H]. }
  - split; [lra|]. split; [intros [[a b] c] ?; lia|left; reflexivity].
  - intros e s He H.
    destruct (loop_inv (fun n s => lowest (fun t : nat * nat * nat => let '(e', j, i) := t in (e' < e \/ e' = e /\ j < n) /\ j < i <= m_order m) f s) nv1
       (fun j d => loop_from (j + 1) (nv1 - (j + 1)) (fun i d => do dist <- high_dist m e j i; Ok (Rmin d dist)) d) s) as (s' & E' & H').
    + revert H. apply lowest_ext. intros [[a b] c]. lia.
    + intros j s1 Hj H1.
      destruct (loop_from_inv (fun n s => lowest (fun t : nat * nat * nat => let '(e', j', i) := t in (e' < e \/ e' = e /\ (j' < j \/ j' = j /\ i < n)) /\ j' < i <= m_order m) f s) (j + 1) (nv1 - (j + 1))
         (fun i d => do dist <- high_dist m e j i; Ok (Rmin d dist)) s1) as (s2 & E2 & H2).
      * revert H1. apply lowest_ext. intros [[a b] c]. lia.
      * intros i s2 Hi H2. rewrite (high_dist_ok m nl N X) by (assumption || (unfold nv1 in *; lia)). cbn [bind]. eexists. split; [reflexivity|].
        apply (lowest_add _ _ _ (e, j, i)) in H2. revert H2. apply lowest_ext. intros [[a b] c]. unfold nv1 in *. split.
        -- intros [Q|Q]; [lia|injection Q as -> -> ->; lia].
        -- intros Q. assert (D : (a = e /\ b = j /\ c = i) \/ ~ (a = e /\ b = j /\ c = i)) by lia. destruct D as [(-> & -> & ->)|D]; [right; reflexivity|left; lia].
      * exists s2. split; [exact E2|]. revert H2. apply lowest_ext. intros [[a b] c]. unfold nv1 in *. lia.
    + exists s'. split; [exact E'|]. revert H'. apply lowest_ext. intros [[a b] c]. unfold nv1 in *. lia.
Qed.

Lemma high_spacing_ok m nl N X d : describes m nl N X -> m_order m + 1 <= nl -> 1 <= m_order m ->
  least_planar (m_order m) (m_num_elems m) N X d -> (d <= NUM_MAX)%R -> high_spacing m = Ok (d / (7 * INR (m_order m)))%R.
Proof.
  intros HM Hnl Hp (L & (e0 & i0 & j0 & He & Hi & E)) Hd. unfold high_spacing.
  destruct (high_min_dist_ok m nl N X HM Hnl) as (s & -> & (A & B & C)). cbn [bind].
  assert (s = d).
  { assert (B0 := B (e0, j0, i0) ltac:(cbn; lia)). cbn in B0. destruct C as [->|([[e j] i] & Q & ->)]; [lra|]. specialize (L e i j ltac:(lia) ltac:(lia)). lra. }
  subst s. rewrite rdiv_ok; [reflexivity|]. assert (0 < INR (m_order m))%R by (apply lt_0_INR; lia). lra.
Qed.

(** * keys *)
Lemma high_bins_ok h mx mn : (0 < h)%R -> exists b, high_bins h mx mn = Ok b /\ forall d, d < 3 -> b d = bins h mn mx d.
Proof.
  intros Hh. unfold high_bins, loop. cbn [loop_from bind]. rewrite !rdiv_ok by lra. cbn [bind]. eexists. split; [reflexivity|].
  intros d Hd. assert (D : d = 0 \/ d = 1 \/ d = 2) by lia. destruct D as [-> | [-> | ->]]; reflexivity.
Qed.
Lemma high_key_ok h mx mn b pts g c : (0 < h)%R -> (forall d, d < 3 -> b d = bins h mn mx d) -> (forall d, d < 3 -> getu pts (g * 3 + d) = Ok (c d)) ->
  exists k, high_key h mn b pts g = Ok k /\ refine_key h mn mx c = Ok (Z.of_nat k).
Proof.
  intros Hh Hb Hc. unfold high_key, loop. cbn [loop_from bind]. rewrite !Hc by lia. cbn [bind]. rewrite !rdiv_ok by lra. cbn [bind].
  match goal with |- context [Z.ltb ?k 0] => replace k with (bin h mn c 0 + bin h mn c 1 * bins h mn mx 0 + bin h mn c 2 * bins h mn mx 0 * bins h mn mx 1)%Z by (rewrite !Hb by lia; reflexivity) end.
  assert (E := refine_key_eq h mn mx Hh c). assert (P := key_nonneg h mn mx Hh c _ E).
  destruct (Z.ltb_spec (bin h mn c 0 + bin h mn c 1 * bins h mn mx 0 + bin h mn c 2 * bins h mn mx 0 * bins h mn mx 1) 0)%Z as [Q|Q]; [lia|].
  eexists. split; [reflexivity|]. rewrite Z2Nat.id by exact P. exact E.
Qed.

Lemma high_keys_ok m N X pts d : let p := m_order m in let ng := (2 * p + 1) ^ 3 in
  1 <= p -> describes m ((p + 1) ^ 3) N X -> least_planar p (m_num_elems m) N X d -> (0 < d <= NUM_MAX)%R ->
  (forall g i, g < m_num_elems m * ng -> i < 3 -> getu pts (g * 3 + i) = Ok (gauss_pos p N X g i)) ->
  exists ks mx mn, high_keys m pts = Ok ks /\ length ks = m_num_elems m * ng /\
    (forall n i, n < m_num_nodes m -> i < 3 -> (mn i <= X n i <= mx i)%R) /\
    (forall i, i < 3 -> mn i = NUM_MAX \/ exists n, n < m_num_nodes m /\ mn i = X n i) /\
    forall g, g < m_num_elems m * ng -> refine_key (d / (7 * INR p)) mn mx (gauss_pos p N X g) = Ok (Z.of_nat (nth g ks 0)).
Proof.
  intros p ng Hp HM HL Hd HP. unfold high_keys. fold p. fold ng.
  destruct (high_box_ok m _ N X HM) as (mx & mn & -> & Hb & Hba). cbn [bind].
  rewrite (high_spacing_ok m _ N X d HM) by (try assumption; try lra; fold p; cbn [Nat.pow]; nia). cbn [bind]. fold p.
  assert (Hh : (0 < d / (7 * INR p))%R) by (assert (0 < INR p)%R by (apply lt_0_INR; lia); apply Rdiv_lt_0_compat; lra).
  destruct (high_bins_ok _ mx mn Hh) as (b & -> & Eb). cbn [bind].
  edestruct (loop_inv (fun n (ks : list nat) => length ks = n /\ forall g, g < n -> refine_key (d / (7 * INR p)) mn mx (gauss_pos p N X g) = Ok (Z.of_nat (nth g ks 0)))
    (m_num_elems m * ng)) as (ks & E & L & H).
  3:{ exists ks, mx, mn. split; [exact E|]. auto. }
  - split; [reflexivity|intros; lia].
  - intros g ks Hg (L & H). cbn beta.
    destruct (high_key_ok _ mx mn b pts g (gauss_pos p N X g) Hh Eb) as (k & -> & Ek); [intros i Hi; apply HP; assumption|]. cbn [bind].
    eexists. split; [reflexivity|]. rewrite app_length, L. split; [cbn; lia|]. intros g' Hg'.
    destruct (Nat.eq_dec g' g) as [->|]; [rewrite app_nth2, L, Nat.sub_diag by lia; exact Ek|]. rewrite app_nth1 by lia. apply H. lia.
Qed.

(** * node coordinates and connectivity *)
Lemma high_coords_ok pts mg (pos : nat -> nat -> R) G : (forall v, v < mg_num mg -> exists g, g < G /\ gauss_of_node mg v = Ok g) ->
  (forall g i, g < G -> i < 3 -> getu pts (g * 3 + i) = Ok (pos g i)) ->
  exists cs, high_coords pts mg = Ok cs /\ forall v g i, v < mg_num mg -> gauss_of_node mg v = Ok g -> i < 3 -> getu cs (v * 3 + i) = Ok (pos g i).
Proof.
  intros HG HP. unfold high_coords.
  set (Q := fun n (cs : list (option R)) => length cs = mg_num mg * 3 /\ forall v g i, v < n -> gauss_of_node mg v = Ok g -> i < 3 -> nth_error cs (v * 3 + i) = Some (Some (pos g i))).
  edestruct (loop_inv Q (mg_num mg)) as (cs & E & H).
  3:{ exists cs. split; [exact E|]. intros v g i Hv Eg Hi. apply getu_some. apply H; assumption. }
  - split; [apply repeat_length|intros; lia].
  - intros n cs Hn (L & H). destruct (HG n Hn) as (g & Hg & Eg).
    destruct (loop_inv (fun j (cs : list (option R)) => length cs = mg_num mg * 3 /\ (forall v g i, v < n -> gauss_of_node mg v = Ok g -> i < 3 -> nth_error cs (v * 3 + i) = Some (Some (pos g i))) /\
       forall i, i < j -> nth_error cs (n * 3 + i) = Some (Some (pos g i))) 3 (fun i cs => do g <- gauss_of_node mg n; do x <- getu pts (g * 3 + i); set cs (n * 3 + i) (Some x)) cs) as (cs' & E' & L' & H1 & H2).
    + split; [exact L|]. split; [exact H|intros; lia].
    + intros j cs1 Hj (L1 & H1 & H2). rewrite Eg. cbn [bind]. rewrite HP by assumption. cbn [bind]. rewrite set_ok by lia. eexists. split; [reflexivity|].
      split; [rewrite upd_length; exact L1|]. split.
      * intros v g' i Hv Eg' Hi. rewrite upd_nth by lia. destruct (Nat.eqb_spec (v * 3 + i) (n * 3 + j)); [lia|]. apply H1; assumption.
      * intros i Hi. rewrite upd_nth by lia. destruct (Nat.eqb_spec (n * 3 + i) (n * 3 + j)); [replace i with j by lia; reflexivity|]. apply H2. lia.
    + exists cs'. split; [exact E'|]. split; [exact L'|]. intros v g' i Hv Eg' Hi. destruct (Nat.eq_dec v n) as [->|]; [|apply H1; [lia|exact Eg'|exact Hi]].
      assert (g' = g) by congruence. subst g'. apply H2. exact Hi.
Qed.

Lemma high_conn_ok ne ng mg (f : nat -> nat) : (forall g, g < ne * ng -> node_in_gauss mg g = Ok (f g)) ->
  exists c, high_conn ne ng mg = Ok c /\ forall e l, e < ne -> l < ng -> getu c (e * ng + l) = Ok (f (e * ng + l)).
Proof.
  intros HG. unfold high_conn.
  edestruct (loop_inv (fun e (c : list (option nat)) => length c = ne * ng /\ forall g, g < e * ng -> nth_error c g = Some (Some (f g))) ne) as (c & E & L & H).
  3:{ exists c. split; [exact E|]. intros e l He Hl. apply getu_some, H. nia. }
  - split; [apply repeat_length|intros g Hg; cbn in Hg; lia].
  - intros e c He (L & H).
    destruct (loop_inv (fun l (c : list (option nat)) => length c = ne * ng /\ forall g, g < e * ng + l -> nth_error c g = Some (Some (f g))) ng
      (fun lid c => do n <- node_in_gauss mg (e * ng + lid); set c (e * ng + lid) (Some n)) c) as (c' & E' & L' & H').
    + split; [exact L|]. intros g Hg. apply H. lia.
    + intros l c1 Hl (L1 & H1). assert (R : e * ng + l < ne * ng) by nia. rewrite HG by exact R. cbn [bind]. rewrite set_ok by lia. eexists. split; [reflexivity|].
      split; [rewrite upd_length; exact L1|]. intros g Hg. rewrite upd_nth by lia. destruct (Nat.eqb_spec g (e * ng + l)) as [->|]; [reflexivity|]. apply H1. lia.
    + exists c'. split; [exact E'|]. split; [exact L'|]. intros g Hg. apply H'. lia.
Qed.

(** * the refined mesh *)
Theorem refine_high_ok Z0 w0 m N X d : let p := m_order m in let n1 := 2 * p + 1 in let ng := n1 ^ 3 in let ne := m_num_elems m in
  1 <= p <= 9 -> 0 < ne -> describes m ((p + 1) ^ 3) N X -> least_planar p ne N X d -> (0 < d <= NUM_MAX)%R ->
  exists hm nd own mx mn, refine_high_order_mesh Z0 w0 m = Ok hm /\ let M := hm_mesh hm in
    m_order M = p /\ m_num_elems M = ne /\ m_width M = ng /\ m_num_nodes M = mg_num (hm_merged hm) /\
    (forall n i, n < m_num_nodes m -> i < 3 -> (mn i <= X n i <= mx i)%R) /\
    (forall i, i < 3 -> mn i = NUM_MAX \/ exists n, n < m_num_nodes m /\ mn i = X n i) /\
    (forall g i, g < ne * ng -> i < 3 -> getu (hm_points hm) (g * 3 + i) = Ok (gauss_pos p N X g i)) /\
    (forall e l, e < ne -> l < ng -> nodes_in_elem M e l = Ok (nd (e * ng + l))) /\
    (forall g, g < ne * ng -> nd g < m_num_nodes M) /\
    (forall v, v < m_num_nodes M -> own v < ne * ng /\ nd (own v) = v /\ forall i, i < 3 -> node_coords M v i = Ok (gauss_pos p N X (own v) i)) /\
    nd 0 = 0 /\ (forall g, 0 < g < ne * ng -> nd g <> 0) /\
    (forall g g', 0 < g < ne * ng -> 0 < g' < ne * ng ->
       (nd g = nd g' <-> refine_key (d / (7 * INR p)) mn mx (gauss_pos p N X g) = refine_key (d / (7 * INR p)) mn mx (gauss_pos p N X g'))) /\
    forall e k j i, e < ne -> k < 2 * p -> j < 2 * p -> i < 2 * p ->
      let ns := 2 * p in let cell := i + j * ns + k * ns * ns + ns * ns * ns * e in
      cells_in_elem (hm_maps hm) ns e (i + j * ns + k * ns * ns) = Ok cell /\
      elems_in_cell (hm_maps hm) cell = Ok e /\
      forall c, c < 8 -> let l := (i + c mod 2) + (j + c / 2 mod 2) * n1 + (k + c / 4) * n1 * n1 in
        gauss_in_cell (hm_maps hm) cell c = Ok (e * ng + l) /\ getu (hm_cells hm) (cell * 8 + c) = nodes_in_elem M e l.
Proof.
  intros p n1 ng ne Hp Hne HM HL Hd.
  destruct (high_points_ok Z0 w0 m N X Hp HM) as (pts & Epts & Lpts & Gpts). fold p n1 ng ne in Gpts.
  destruct (high_keys_ok m N X pts d ltac:(fold p; lia) HM HL Hd Gpts) as (ks & mx & mn & Eks & Lks & Hbox & Hatt & Hkey). fold p n1 ng ne in Lks, Hkey.
  assert (Hng : 0 < ng) by (unfold ng, n1; cbn [Nat.pow]; nia).
  assert (Hks : ks <> []) by (intros ->; cbn in Lks; nia).
  destruct (merge_spec ks Hks) as (mg & Emg & M1 & M2 & M3 & M4 & M5). rewrite Lks in M1, M3, M4, M5.
  set (nd := fun g => match node_in_gauss mg g with Ok v => v | Err _ => 0 end).
  assert (End : forall g, g < ne * ng -> node_in_gauss mg g = Ok (nd g) /\ nd g < mg_num mg).
  { intros g Hg. destruct (M1 g Hg) as (v & Hv & E). unfold nd. rewrite E. auto. }
  set (own := fun v => match gauss_of_node mg v with Ok g => g | Err _ => 0 end).
  assert (Eown : forall v, v < mg_num mg -> gauss_of_node mg v = Ok (own v) /\ own v < ne * ng /\ nd (own v) = v).
  { intros v Hv. destruct (M5 v Hv) as (g & Hg & E & E'). unfold own. rewrite E. split; [reflexivity|]. split; [exact Hg|]. unfold nd. rewrite E'. reflexivity. }
  destruct (high_coords_ok pts mg (gauss_pos p N X) (ne * ng)) as (cs & Ecs & Hcs); [intros v Hv; exists (own v); destruct (Eown v Hv) as (? & ? & ?); auto|exact Gpts|].
  destruct (high_conn_ok ne ng mg nd) as (cn & Ecn & Hcn); [intros; apply End; assumption|].
  destruct (refined_maps ne (p * 2) n1) as (maps & Emaps & Hmaps).
  destruct (refined_nodes ne (p * 2) n1 ks mg) as (nic & Enic & Hnic); [unfold n1; lia|rewrite Lks; unfold ng; cbn [Nat.pow]; lia|exact Emg|].
  eexists {| hm_points := pts; hm_merged := mg; hm_maps := maps; hm_cells := nic; hm_mesh := Mesh p (mg_num mg) ne cs ng cn |}, nd, own, mx, mn.
  split; [unfold refine_high_order_mesh; cbv zeta; fold p; fold n1; fold ng; fold ne; rewrite Epts; cbn [bind]; rewrite Eks; cbn [bind]; rewrite Emg; cbn [bind]; rewrite Ecs; cbn [bind]; rewrite Emaps; cbn [bind]; rewrite Enic; cbn [bind]; rewrite Ecn; reflexivity|].
  cbn [hm_points hm_merged hm_maps hm_cells hm_mesh m_order m_num_elems m_width m_num_nodes]. cbv zeta.
  repeat (split; [reflexivity|]). split; [exact Hbox|]. split; [exact Hatt|]. split; [exact Gpts|].
  assert (Hnie : forall e l, e < ne -> l < ng -> nodes_in_elem (Mesh p (mg_num mg) ne cs ng cn) e l = Ok (nd (e * ng + l))) by (intros e l He Hl; apply Hcn; assumption).
  split; [exact Hnie|]. split; [intros g Hg; apply End; exact Hg|].
  split; [intros v Hv; destruct (Eown v Hv) as (A & B & C); split; [exact B|]; split; [exact C|]; intros i Hi; apply Hcs; assumption|].
  split; [unfold nd; rewrite M2; reflexivity|].
  split; [intros g Hg E; apply (M3 g Hg); destruct (End g ltac:(lia)) as (-> & _); rewrite E; reflexivity|].
  split.
  - intros g g' Hg Hg'. rewrite !Hkey by lia. specialize (M4 g g' Hg Hg'). destruct (End g ltac:(lia)) as (E & _). destruct (End g' ltac:(lia)) as (E' & _). rewrite E, E' in M4. split.
    + intros Q. f_equal. f_equal. apply M4. f_equal. exact Q.
    + intros Q. injection Q as Q. apply Nat2Z.inj in Q. apply M4 in Q. injection Q. auto.
  - intros e k j i He Hk Hj Hi. rewrite (Nat.mul_comm 2 p) in *. destruct (Hmaps e k j i He Hk Hj Hi) as (A & B & C). cbv zeta in A, B, C. split; [exact A|]. split; [exact B|].
    intros c Hc. split; [rewrite C by exact Hc; f_equal; unfold ng; cbn [Nat.pow]; ring|].
    destruct (Hnic e k j i c He Hk Hj Hi Hc) as (n & E1 & _ & E2). cbv zeta in E1. rewrite E1.
    set (l := i + c mod 2 + (j + c / 2 mod 2) * n1 + (k + c / 4) * n1 * n1) in *.
    replace (l + n1 * n1 * n1 * e) with (e * ng + l) in E2 by (unfold ng; cbn [Nat.pow]; ring).
    assert (Hl : l < ng).
    { assert (c mod 2 < 2) by (apply Nat.mod_upper_bound; lia). assert (c / 2 mod 2 < 2) by (apply Nat.mod_upper_bound; lia). assert (c / 4 < 2) by (apply Nat.div_lt_upper_bound; lia).
      unfold l, ng. apply grid3_lt; unfold n1; lia. }
    rewrite Hnie by assumption. destruct (End (e * ng + l) ltac:(nia)) as (E3 & _). congruence.
Qed.
