(** The reference element: C34-C38, C50, C56. *)
From Coq Require Import List Arith ZArith Lia Bool Reals Lra.
Import ListNotations.
Require Import Verif.Base Verif.RSum Verif.Model_Refine Verif.Model_Ref Verif.Spec_Ref Verif.Proof_Ref Verif.Proof_Ref2
  Verif.Proof_Ref3 Verif.Proof_Ref4 Verif.Proof_Ref5 Verif.Proof_Ref6.
Local Open Scope nat_scope.

(** C34: for every order >= 1 each cell is in exactly one zone, at exactly one position, and every
    zone position holds a cell. *)
Theorem C34_zones_partition : forall p, 1 <= p -> exists lst, build_zones p = Ok lst /\
  (forall z l, z < rs_zones (ref_sizes_of p) -> l < 8 ->
     exists c, cell_lid_in_zone p lst z l = Ok c /\ c < rs_cells (ref_sizes_of p)) /\
  (forall c, c < rs_cells (ref_sizes_of p) ->
     exists z l, (z < rs_zones (ref_sizes_of p) /\ l < 8 /\ cell_lid_in_zone p lst z l = Ok c) /\
       forall z' l', z' < rs_zones (ref_sizes_of p) -> l' < 8 -> cell_lid_in_zone p lst z' l' = Ok c -> z' = z /\ l' = l).
Proof. exact zones_partition. Qed.
Print Assumptions C34_zones_partition.

(** C34: zone (i,j,k) is the 2x2x2 block of cells starting at (2i,2j,2k). *)
Theorem C34_zone_is_block : forall p, 1 <= p -> exists lst, build_zones p = Ok lst /\
  forall i j k l, i < p -> j < p -> k < p -> l < 8 ->
    cell_lid_in_zone p lst (rid p i j k) l = Ok (rid (2 * p) (2 * i + off 0 l) (2 * j + off 1 l) (2 * k + off 2 l)).
Proof. exact zones_spec. Qed.
Print Assumptions C34_zone_is_block.

(** C34: at order 0 the single zone holds one cell only; positions 1..7 are out of bounds
    although the mesh reports 8 cells in a zone. *)
Theorem C34_order_zero : ms_cells_in_zone (init_element 0 3 1) = 8 /\
  exists lst, build_zones 0 = Ok lst /\ cell_lid_in_zone 0 lst 0 0 = Ok 0 /\
  forall l, 1 <= l -> cell_lid_in_zone 0 lst 0 l = Err OOB.
Proof. split; [reflexivity|exact zones_order0]. Qed.
Print Assumptions C34_order_zero.

Example C34_nonvacuous : exists lst, build_zones 2 = Ok lst /\ rs_zones (ref_sizes_of 2) = 8 /\ rs_cells (ref_sizes_of 2) = 64 /\
  map (cell_lid_in_zone 2 lst 3) (seq 0 8) = map Ok [10; 11; 14; 15; 26; 27; 30; 31].
Proof. eexists. split; [reflexivity|]. repeat split. Qed.

(** C35: corners are enumerated exactly once over (cell, local corner); the node of a corner is the
    one cell_nodes_in_elem gives. *)
Theorem C35_corners_enumerated : forall n1, 2 <= n1 -> exists crn nod cel, build_ref_corners n1 = Ok (crn, nod) /\
  build_cell_nodes_in_elem n1 = Ok cel /\
  let nc := n1 - 1 in
  (forall c l, c < nc * nc * nc -> l < 8 ->
     exists r m, ref_corners_in_cell crn c l = Ok r /\ r < 2 * nc * (2 * nc) * (2 * nc) /\
       ref_nodes_in_cell nod c l = Ok m /\ cell_nodes_in_elem cel c l = Ok m /\ m < n1 * n1 * n1) /\
  (forall r, r < 2 * nc * (2 * nc) * (2 * nc) ->
     exists c l, (c < nc * nc * nc /\ l < 8 /\ ref_corners_in_cell crn c l = Ok r) /\
       forall c' l', c' < nc * nc * nc -> l' < 8 -> ref_corners_in_cell crn c' l' = Ok r -> c' = c /\ l' = l).
Proof. exact corners_enumerate. Qed.
Print Assumptions C35_corners_enumerated.

(** C35: positions: local corner l of cell (i,j,k) is corner (2i+a,2j+b,2k+c) of the corner grid and sits
    at node (i+a,j+b,k+c), where a,b,c are the bits of l. *)
Theorem C35_positions : forall n1, 2 <= n1 -> exists crn nod, build_ref_corners n1 = Ok (crn, nod) /\
  forall i j k l, i < n1 - 1 -> j < n1 - 1 -> k < n1 - 1 -> l < 8 ->
    ref_corners_in_cell crn (rid (n1 - 1) i j k) l =
      Ok (rid (2 * (n1 - 1)) (2 * i + off 0 l) (2 * j + off 1 l) (2 * k + off 2 l)) /\
    ref_nodes_in_cell nod (rid (n1 - 1) i j k) l = Ok (rid n1 (i + off 0 l) (j + off 1 l) (k + off 2 l)).
Proof. exact corners_spec. Qed.
Print Assumptions C35_positions.

Example C35_nonvacuous : exists crn nod, build_ref_corners 3 = Ok (crn, nod) /\ length crn = 64 /\
  map (ref_corners_in_cell crn 3) (seq 0 8) = map Ok [10; 11; 14; 15; 26; 27; 30; 31] /\
  map (ref_nodes_in_cell nod 3) (seq 0 8) = map Ok [4; 5; 7; 8; 13; 14; 16; 17].
Proof. do 2 eexists. split; [reflexivity|]. repeat split. Qed.

(** C36: corner weights.  [cof c l], [nof c l]: corner and node the accessors return;
    [cwt], [nwt]: the weights the accessors return. *)
Theorem C36_corner_weights : forall n1 (w : list R), 2 <= n1 -> length w = n1 ->
  exists crn nod cw g ng,
    build_ref_corners n1 = Ok (crn, nod) /\ corner_weights_1d n1 w = Ok cw /\
    build_corner_weights n1 cw = Ok g /\ build_node_weights n1 w = Ok ng /\
  exists (cof nof : nat -> nat -> nat) (cwt nwt : nat -> R),
    let nc := n1 - 1 in
    (forall c l, c < nc * nc * nc -> l < 8 ->
       ref_corners_in_cell crn c l = Ok (cof c l) /\ ref_nodes_in_cell nod c l = Ok (nof c l) /\
       getu g (cof c l) = Ok (cwt (cof c l))) /\
    (forall m, m < n1 * n1 * n1 -> getu ng m = Ok (nwt m)) /\
    (forall i j k, i < n1 -> j < n1 -> k < n1 -> nwt (rid n1 i j k) = (nth i w 0 * nth j w 0 * nth k w 0)%R) /\
    (forall m, m < n1 * n1 * n1 ->
       rsum (nc * nc * nc) (fun c => rsum 8 (fun l => if nof c l =? m then cwt (cof c l) else 0%R)) = nwt m) /\
    rsum (2 * nc * (2 * nc) * (2 * nc)) cwt = (rsum n1 (fun i => nth i w 0) ^ 3)%R.
Proof.
  intros n1 w Hn L. destruct (weights_spec n1 w Hn L) as (crn & nod & cw & g & parts & ng & nrm & swt & E1 & E2 & E3 & E4 & E5 & E6 &
    cof & nof & cwt & nwt & sw & nm & A & B & C & D & F & _ & _).
  exists crn, nod, cw, g, ng. repeat (split; [assumption|]). exists cof, nof, cwt, nwt. split.
  { intros c l Hc Hl. destruct (A c l Hc Hl) as (A1 & A2 & A3 & _). auto. }
  repeat (split; [assumption|]). assumption.
Qed.
Print Assumptions C36_corner_weights.

(** C36: positions and weights of the nodes (Lobatto) and of the cells (Legendre) are tensor products
    of the 1D tables. *)
Theorem C36_tensor_points : forall n (pts wts : list R), length pts = n -> length wts = n ->
  exists pos wg, build_node_pos n pts = Ok pos /\ build_cell_pos n pts = Ok pos /\
    build_node_weights n wts = Ok wg /\ build_cell_weights n wts = Ok wg /\
  forall i j k, i < n -> j < n -> k < n ->
    (forall d, d < 3 -> ref_node_positions pos (rid n i j k) d = Ok (nth (coord d i j k) pts 0%R)) /\
    getu wg (rid n i j k) = Ok (nth i wts 0 * nth j wts 0 * nth k wts 0)%R.
Proof.
  intros n pts wts L1 L2. destruct (node_pos_ok n pts L1) as (pos & E1 & H1). destruct (tensor_ok n wts L2) as (wg & E2 & H2).
  exists pos, wg. repeat (split; [assumption|]). intros i j k Hi Hj Hk. split; [intros d Hd; apply H1|apply H2]; assumption.
Qed.
Print Assumptions C36_tensor_points.

Example C36_nonvacuous : length [(1/3)%R; (4/3)%R; (1/3)%R] = 3 /\ corner_share 3 [(1/3)%R; (4/3)%R; (1/3)%R] 0 = (1/3)%R /\
  corner_share 3 [(1/3)%R; (4/3)%R; (1/3)%R] 1 = (2/3)%R /\ corner_share 3 [(1/3)%R; (4/3)%R; (1/3)%R] 2 = (2/3)%R /\
  corner_share 3 [(1/3)%R; (4/3)%R; (1/3)%R] 3 = (1/3)%R.
Proof. unfold corner_share. simpl. repeat split; lra. Qed.

(** C56: corner surface normals and surface weights. *)
Theorem C56_corner_surfaces : forall n1 (w : list R), 2 <= n1 -> length w = n1 ->
  exists crn nod cw parts nrm swt,
    build_ref_corners n1 = Ok (crn, nod) /\ corner_weights_1d n1 w = Ok cw /\
    build_corner_parts n1 cw = Ok parts /\ build_corner_surfs n1 parts = Ok (nrm, swt) /\
  exists (cof nof : nat -> nat -> nat) (sw : nat -> nat -> R) (nm : nat -> nat -> nat -> R),
    let nc := n1 - 1 in
    (forall c l, c < nc * nc * nc -> l < 8 ->
       ref_corners_in_cell crn c l = Ok (cof c l) /\ ref_nodes_in_cell nod c l = Ok (nof c l) /\
       forall s, s < 3 -> ref_corner_g_surface_weights swt (cof c l) s = Ok (sw (cof c l) s) /\
         forall d, d < 3 -> ref_corner_surface_normals nrm (cof c l) s d = Ok (nm (cof c l) s d)) /\
    (forall i j k l s d, i < nc -> j < nc -> k < nc -> l < 8 -> s < 3 -> d < 3 ->
       nm (cof (rid nc i j k) l) s d = if d =? s then (if off s l =? 0 then -1 else 1)%R else 0%R) /\
    (forall i j k s, i < n1 -> j < n1 -> k < n1 -> s < 3 ->
       rsum (nc * nc * nc) (fun c => rsum 8 (fun l =>
         if nof c l =? rid n1 i j k then (sw (cof c l) s * nm (cof c l) s s)%R else 0%R)) =
       ((if (coord s i j k =? 0)%nat then -1 else if (coord s i j k =? n1 - 1)%nat then 1 else 0) *
        match s with
        | 0%nat => nth j w 0 * nth k w 0
        | 1%nat => nth i w 0 * nth k w 0
        | _ => nth i w 0 * nth j w 0
        end)%R).
Proof.
  intros n1 w Hn L. destruct (weights_spec n1 w Hn L) as (crn & nod & cw & g & parts & ng & nrm & swt & E1 & E2 & E3 & E4 & E5 & E6 &
    cof & nof & cwt & nwt & sw & nm & A & B & C & D & F & G & H).
  exists crn, nod, cw, parts, nrm, swt. repeat (split; [assumption|]). exists cof, nof, sw, nm. split.
  { intros c l Hc Hl. destruct (A c l Hc Hl) as (A1 & A2 & _ & A4). auto. }
  split; [exact G|exact H].
Qed.
Print Assumptions C56_corner_surfaces.

Example C56_nonvacuous : nth 0 [(1/3)%R; (4/3)%R; (1/3)%R] 0%R <> 0%R /\ 2 <= length [(1/3)%R; (4/3)%R; (1/3)%R].
Proof. simpl. split; [lra|lia]. Qed.

(** C37: patch numbering.  Sides get the same id exactly when they are the same face; the ids used are
    exactly 0 .. 3 n^2 (n+1) - 1; position and weight of a patch are the same from either side. *)
Theorem C37_patch_numbering : forall n lob leg legw, length lob = n + 1 -> length leg = n -> length legw = n ->
  exists P, build_patches n lob leg legw = Ok P /\ pt_rid P = 3 * n * n * (n + 1) /\
    exists id : nat -> nat -> nat -> nat -> nat,
    (forall i j k s, i < n -> j < n -> k < n -> s < 6 ->
       ref_patches_in_cell P (rid n i j k) s = Ok (Z.of_nat (id i j k s)) /\ id i j k s < 3 * n * n * (n + 1) /\
       (forall d, d < 3 -> ref_patch_positions P (id i j k s) d = Ok (patch_coord lob leg s i j k d)) /\
       ref_patch_g_weights P (id i j k s) = Ok (patch_weight legw s i j k)) /\
    (forall i j k s i' j' k' s', i < n -> j < n -> k < n -> s < 6 -> i' < n -> j' < n -> k' < n -> s' < 6 ->
       id i j k s = id i' j' k' s' <-> side_face s i j k = side_face s' i' j' k') /\
    (forall r, r < 3 * n * n * (n + 1) -> exists i j k s, i < n /\ j < n /\ k < n /\ s < 6 /\ id i j k s = r).
Proof. intros n lob leg legw. exact (patch_numbering n lob leg legw). Qed.
Print Assumptions C37_patch_numbering.

Example C37_nonvacuous :
  (do P <- build_patches 2 [0%R; 0%R; 0%R] [0%R; 0%R] [0%R; 0%R];
   Ok (pt_rid P, map (ref_patches_in_cell P 0) (seq 0 6), map (ref_patches_in_cell P 1) (seq 0 6))) =
  Ok (36, map Ok [0; 1; 2; 3; 4; 5]%Z, map Ok [1; 6; 7; 8; 9; 10]%Z).
Proof. vm_compute. reflexivity. Qed.

(** C37: the nodes of a side are the four corners of the cell on that side, and the two cells sharing a
    face list the same four nodes in the same order. *)
Lemma patch_nodes_tab s l : s < 6 -> l < 4 -> exists v, node_in_patch_in_cell s l = Ok v /\ v < 8 /\ off (s / 2) v = s mod 2.
Proof.
  intros Hs Hl. assert (D : l = 0 \/ l = 1 \/ l = 2 \/ l = 3) by lia.
  six s; destruct D as [D|[D|[D|D]]]; subst; eexists; (split; [reflexivity|]); split; try lia; reflexivity.
Qed.
Theorem C37_side_nodes : 
  (forall s l, s < 6 -> l < 4 -> exists v, node_in_patch_in_cell s l = Ok v /\ v < 8 /\ off (s / 2) v = s mod 2) /\
  (forall s v, s < 6 -> v < 8 -> off (s / 2) v = s mod 2 ->
     exists l, (l < 4 /\ node_in_patch_in_cell s l = Ok v) /\ forall l', l' < 4 -> node_in_patch_in_cell s l' = Ok v -> l' = l).
Proof.
  split; [exact patch_nodes_tab|]. intros s v Hs Hv E.
  assert (C : v = 0 \/ v = 1 \/ v = 2 \/ v = 3 \/ v = 4 \/ v = 5 \/ v = 6 \/ v = 7) by lia.
  six s; destruct C as [C|[C|[C|[C|[C|[C|[C|C]]]]]]]; subst v; try discriminate E;
  (first [exists 0; split; [split; [lia|reflexivity]|] | exists 1; split; [split; [lia|reflexivity]|]
        | exists 2; split; [split; [lia|reflexivity]|] | exists 3; split; [split; [lia|reflexivity]|]];
   intros l' Hl' E'; assert (D : l' = 0 \/ l' = 1 \/ l' = 2 \/ l' = 3) by lia; destruct D as [D|[D|[D|D]]]; subst l';
   first [reflexivity | discriminate E']).
Qed.
Print Assumptions C37_side_nodes.

Theorem C37_shared_side_nodes : forall n1, exists cel, build_cell_nodes_in_elem n1 = Ok cel /\
  forall i j k d l v v', i + (if d =? 0 then 1 else 0) < n1 - 1 -> j + (if d =? 1 then 1 else 0) < n1 - 1 ->
    k + (if d =? 2 then 1 else 0) < n1 - 1 -> d < 3 -> l < 4 ->
    node_in_patch_in_cell (2 * d + 1) l = Ok v -> node_in_patch_in_cell (2 * d) l = Ok v' ->
    exists m, cell_nodes_in_elem cel (rid (n1 - 1) i j k) v = Ok m /\
      cell_nodes_in_elem cel (rid (n1 - 1) (i + (if d =? 0 then 1 else 0)) (j + (if d =? 1 then 1 else 0)) (k + (if d =? 2 then 1 else 0))) v' = Ok m.
Proof.
  intros n1. destruct (cell_nodes_spec n1) as (cel & E & H). exists cel. split; [exact E|].
  intros i j k d l v v' Hi Hj Hk Hd Hl E1 E2.
  destruct (patch_nodes_tab (2 * d + 1) l) as (u & U1 & U2 & _); [lia|exact Hl|]. rewrite U1 in E1. injection E1 as ->.
  destruct (patch_nodes_tab (2 * d) l) as (u & V1 & V2 & _); [lia|exact Hl|]. rewrite V1 in E2. injection E2 as ->.
  rewrite (H i j k v), (H _ _ _ v') by lia. eexists. split; [reflexivity|]. f_equal.
  assert (D : l = 0 \/ l = 1 \/ l = 2 \/ l = 3) by lia. assert (D3 : d = 0 \/ d = 1 \/ d = 2) by lia.
  destruct D3 as [D3|[D3|D3]]; destruct D as [D|[D|[D|D]]]; subst; cbv in U1, V1; injection U1 as <-; injection V1 as <-;
  offs; cbn [Nat.eqb]; f_equal; lia.
Qed.
Print Assumptions C37_shared_side_nodes.

(** C37: the side normals point outwards along the side's direction. *)
Theorem C37_side_normals : forall s d, s < 6 -> d < 3 ->
  cell_side_unit_normals s d = Ok (if d =? s / 2 then (if s mod 2 =? 0 then -1 else 1)%R else 0%R).
Proof.
  intros s d Hs Hd. assert (D3 : d = 0 \/ d = 1 \/ d = 2) by lia. six s; destruct D3 as [D3|[D3|D3]]; subst; reflexivity.
Qed.
Print Assumptions C37_side_normals.

(** C38: surface and inside nodes. *)
Theorem C38_surface_inside : forall n, 2 <= n -> exists li ls,
  build_node_lists n = Ok (map Some li, map Some ls, length li, length ls) /\
  length li = (n - 2) * (n - 2) * (n - 2) /\ length ls = n * n * n - (n - 2) * (n - 2) * (n - 2) /\
  increasing li /\ increasing ls /\
  (forall r, In r li <-> exists i j k, 0 < i < n - 1 /\ 0 < j < n - 1 /\ 0 < k < n - 1 /\ r = rid n i j k) /\
  (forall r, In r ls <-> r < n * n * n /\ ~ In r li).
Proof. exact node_lists_spec. Qed.
Print Assumptions C38_surface_inside.

Example C38_nonvacuous : build_node_lists 3 = Ok ([Some 13],
   map Some (seq 0 13 ++ seq 14 13), 1, 26).
Proof. reflexivity. Qed.

(** C50: the mesh and the reference element agree on every per-element size; the number of cells in a zone
    agrees except at order 0. *)
Theorem C50_sizes_agree : forall p ne,
  let m := init_element p 3 ne in let s := ref_sizes_of p in
  ms_gauss_in_elem m = rs_nodes s /\ ms_nodes_in_elem m = rs_nodes s /\ ms_zones_in_elem m = rs_zones s /\
  ms_cells_in_elem m = rs_cells s /\ ms_cells m = ne * rs_cells s /\ ms_patches_in_elem m = rs_patches s /\
  ms_patch_pts_in_elem m = rs_patches s /\ (ms_cells_in_zone m = rs_zone_len s <-> p <> 0) /\
  num_g_pts_1d p = rs_nodes_1d s /\ num_sub_1d p = rs_cells_1d s /\ rs_nodes_1d s = rs_cells_1d s + 1 /\
  rs_corners_1d s = 2 * rs_cells_1d s /\ (1 <= p -> rs_zones s * 8 = rs_cells s).
Proof.
  intros p ne m s. unfold m, s, init_element, ref_sizes_of, num_g_pts_1d, num_sub_1d.
  cbn [ms_gauss_in_elem ms_nodes_in_elem ms_zones_in_elem ms_cells_in_elem ms_cells ms_patches_in_elem ms_patch_pts_in_elem ms_cells_in_zone
    rs_nodes rs_zones rs_cells rs_patches rs_zone_len rs_nodes_1d rs_cells_1d rs_corners_1d Nat.pow].
  destruct (Nat.eqb_spec p 0) as [->|Hp].
  - simpl. repeat split; try lia; intros; congruence.
  - replace (2 * p + 1 - 1) with (2 * p) by lia.
    replace (2 * p / 2) with p by (rewrite Nat.mul_comm, Nat.div_mul by lia; reflexivity).
    repeat split; try lia.
Qed.
Print Assumptions C50_sizes_agree.

(** C50: global Gauss and patch point ids are one-to-one onto 0 .. elements*points - 1. *)
Theorem C50_global_ids : forall p ne,
  let m := init_element p 3 ne in
  (forall e l, e < ne -> l < ms_gauss_in_elem m -> gauss_in_elem m e l < ne * ms_gauss_in_elem m) /\
  (forall g, g < ne * ms_gauss_in_elem m -> exists e l, (e < ne /\ l < ms_gauss_in_elem m /\ gauss_in_elem m e l = g) /\
     forall e' l', l' < ms_gauss_in_elem m -> gauss_in_elem m e' l' = g -> e' = e /\ l' = l) /\
  (forall e l, e < ne -> l < ms_patch_pts_in_elem m -> gauss_patch_pt_in_elem m e l < ne * ms_patch_pts_in_elem m) /\
  (forall g, g < ne * ms_patch_pts_in_elem m -> exists e l, (e < ne /\ l < ms_patch_pts_in_elem m /\ gauss_patch_pt_in_elem m e l = g) /\
     forall e' l', l' < ms_patch_pts_in_elem m -> gauss_patch_pt_in_elem m e' l' = g -> e' = e /\ l' = l).
Proof.
  intros p ne m. unfold gauss_in_elem, gauss_patch_pt_in_elem.
  assert (A : forall K e l, e < ne -> l < K -> e * K + l < ne * K) by (intros K e l He Hl; nia).
  assert (B : forall K g, g < ne * K -> exists e l, (e < ne /\ l < K /\ e * K + l = g) /\
     forall e' l', l' < K -> e' * K + l' = g -> e' = e /\ l' = l).
  { intros K g Hg. destruct (NatSum.divmod_pos g K ne Hg) as (A1 & A2 & A3). exists (g / K), (g mod K). split; [auto|].
    intros e' l' Hl' E. destruct (NatSum.digit_lo K e' l' Hl') as (D1 & D2). rewrite E in D1, D2. auto. }
  split; [intros; apply A; assumption|]. split; [apply B|]. split; [intros; apply A; assumption|apply B].
Qed.
Print Assumptions C50_global_ids.

Example C50_nonvacuous : ms_gauss_in_elem (init_element 2 3 7) = 125 /\ rs_patches (ref_sizes_of 2) = 240 /\
  gauss_in_elem (init_element 2 3 7) 6 124 = 874.
Proof. repeat split. Qed.
