(** C40: exchange of meshes with VTK; C53: choice of the file format (io/vtk_io.cpp).
    [pif] is VTK's PointIndexFromIJK: the theorems hold for every one-to-one numbering, and
    [C40_vtk_numbering] shows that the numbering VTK documents is one. *)
From Coq Require Import List Arith NArith Lia Bool Ascii.
Import ListNotations.
Require Import Verif.Base Verif.Model_Common Verif.Model_Ref Verif.Model_Vtk Verif.Spec_Vtk Verif.Proof_Box Verif.Proof_Vtk Verif.Proof_Vtk2 Verif.Proof_Vtk3.
Local Open Scope nat_scope.

Theorem C40_vtk_numbering : forall p, numbers_vertices p (vtk_index p).
Proof. exact vtk_index_numbers. Qed.

(** The two maps are total, mutually inverse, and say which VTK vertex is at grid position (I, J, K). *)
Theorem C40_maps : forall pif p, numbers_vertices p (pif p) -> (N.of_nat (num_verts p) <= 2 ^ 64)%N ->
  exists F G, make_vtk_vert_map pif p false (repeat None (num_verts p)) = Ok F /\ make_vtk_vert_map pif p true (repeat None (num_verts p)) = Ok G /\
    length F = num_verts p /\ length G = num_verts p /\
    (forall I J K, I <= p -> J <= p -> K <= p -> holds F (vert p I J K) (pif p I J K)) /\
    (forall s, s < num_verts p -> exists v, v < num_verts p /\ holds F s v /\ holds G v s) /\
    (forall v, v < num_verts p -> exists s, s < num_verts p /\ holds G v s /\ holds F s v).
Proof.
  intros pif p Hn B. destruct (map_forward pif p Hn B) as (F & EF & LF & HF). destruct (map_reverse pif p Hn B) as (G & EG & LG & HG).
  exists F, G. split; [exact EF|]. split; [exact EG|]. split; [exact LF|]. split; [exact LG|]. split; [exact HF|]. split.
  - intros s Hs. destruct (vert_surj p s Hs) as (I & J & K & HI & HJ & HK & ->). exists (pif p I J K). split; [apply Hn; assumption|]. auto.
  - intros v Hv. destruct (pif_surj p (pif p) v Hn Hv) as (I & J & K & HI & HJ & HK & ->). exists (vert p I J K). split; [apply vert_lt; assumption|]. auto.
Qed.

(** a caller's array that is too short is overrun *)
Theorem C40_short_map : forall pif p reverse map, numbers_vertices p (pif p) -> (N.of_nat (num_verts p) <= 2 ^ 64)%N -> length map < num_verts p ->
  make_vtk_vert_map pif p reverse map = Err OOB.
Proof.
  intros pif p reverse mp Hn B Lm. unfold make_vtk_vert_map. cbv zeta. rewrite loop3_iter.
  set (body := fun (x : nat * nat * nat) s => _).
  assert (Q : forall l s, (forall x, In x l -> In x (grid_list (p + 1) (p + 1) (p + 1))) -> length s = length mp ->
     (exists x, In x l /\ length mp <= (let '(k, j, i) := x in if reverse then pif p i j k else vert p i j k)) -> iter l body s = Err OOB).
  { induction l as [|[[k j] i] l IH]; intros s Hl Ls (x & Hx & Lx); [destruct Hx|]. cbn [iter]. unfold body at 1.
    pose proof (Hl _ (or_introl eq_refl)) as G. apply grid_In in G. rewrite mixed_vert by (lia || exact B). cbn [bind]. rewrite Nat2N.id.
    set (w := if reverse then pif p i j k else vert p i j k).
    assert (E : forall v, (if negb reverse then set s (vert p i j k) (Some (pif p i j k)) else set s (pif p i j k) (Some (vert p i j k))) = v -> v = (do s' <- set s w (Some (if reverse then vert p i j k else pif p i j k)); Ok s')).
    { intros v <-. unfold w. destruct reverse; cbn [negb]; [destruct (set s (pif p i j k) (Some (vert p i j k)))|destruct (set s (vert p i j k) (Some (pif p i j k)))]; reflexivity. }
    rewrite (E _ eq_refl). destruct (Nat.lt_ge_cases w (length s)) as [Lw|Lw].
    - rewrite set_ok by exact Lw. cbn [bind]. apply IH; [intros; apply Hl; right; assumption|rewrite upd_length; exact Ls|]. exists x. split; [|exact Lx].
      destruct Hx as [<-|Hx]; [|exact Hx]. fold w in Lx. lia.
    - rewrite set_oob by exact Lw. reflexivity. }
  apply Q; [auto|reflexivity|]. destruct reverse.
  - destruct (pif_surj p (pif p) (length mp) Hn Lm) as (I & J & K & HI & HJ & HK & E). exists (K, J, I). split; [apply grid_In; lia|lia].
  - destruct (vert_surj p (length mp) Lm) as (I & J & K & HI & HJ & HK & E). exists (K, J, I). split; [apply grid_In; lia|lia].
Qed.

(** a mesh whose elements list their (order + 1)^3 vertices, each an existing node *)
Definition mesh_ok {D} (m : mesh D) : Prop :=
  length (m_coords m) = m_num_nodes m * 3 /\ length (m_conn m) = m_num_elems m * m_width m /\ num_verts (m_order m) <= m_width m /\
  forall e s, e < m_num_elems m -> s < num_verts (m_order m) -> exists id, id < m_num_nodes m /\ holds (m_conn m) (e * m_width m + s) id.
(** node id is a vertex of an element *)
Definition used {D} (m : mesh D) (id : nat) : Prop := exists e s, e < m_num_elems m /\ s < num_verts (m_order m) /\ holds (m_conn m) (e * m_width m + s) id.

(** Writing: one Lagrange cell per element with the element's vertices in VTK's order; the points of the used nodes with their coordinates in the
    precision of VTK's point array, the other points unset; at each used node the solution value of the last element vertex there. *)
Theorem C40_write : forall D pif (rnd : D -> D) (m : mesh D) sw solution, let p := m_order m in
  numbers_vertices p (pif p) -> (N.of_nat (num_verts p) <= 2 ^ 64)%N -> mesh_ok m -> num_verts p <= sw -> length solution = m_num_elems m * sw ->
  exists g, init_vtk_grid pif rnd m sw solution = Ok g /\ g_num_points g = m_num_nodes m /\ length (g_points g) = m_num_nodes m * 3 /\ length (g_cells g) = m_num_elems m /\
    (forall e, e < m_num_elems m -> exists ids, nth_error (g_cells g) e = Some (LagrangeHex, ids) /\ length ids = num_verts p /\
       forall I J K id, I <= p -> J <= p -> K <= p -> holds (m_conn m) (e * m_width m + vert p I J K) id -> holds ids (pif p I J K) id) /\
    (forall id c, used m id -> c < 3 -> nth_error (g_points g) (id * 3 + c) = option_map (option_map rnd) (nth_error (m_coords m) (id * 3 + c))) /\
    (forall id c, id < m_num_nodes m -> ~ used m id -> c < 3 -> nth_error (g_points g) (id * 3 + c) = Some None) /\
    (forall id e s, e < m_num_elems m -> s < num_verts p -> holds (m_conn m) (e * m_width m + s) id ->
       (forall e' s', e' < m_num_elems m -> s' < num_verts p -> holds (m_conn m) (e' * m_width m + s') id -> e' < e \/ (e' = e /\ s' <= s)) ->
       nth_error (g_scalars g) id = nth_error solution (e * sw + s)).
Proof.
  intros D pif rnd m sw solution p Hn B (Lc & Lcn & Hw & Hv) Hsw Lso.
  destruct (map_forward pif p Hn B) as (F & EF & LF & HF).
  set (npe := num_verts p) in *. set (w := m_width m) in *. set (ne := m_num_elems m) in *. set (nv := m_num_nodes m) in *.
  set (cn := fun e s => match getu (m_conn m) (e * w + s) with Ok id => id | Err _ => 0 end).
  set (fwd := fun s => match getu F s with Ok v => v | Err _ => 0 end).
  assert (Fv : forall I J K, I <= p -> J <= p -> K <= p -> fwd (vert p I J K) = pif p I J K).
  { intros I J K HI HJ HK. unfold fwd. rewrite (holds_getu _ _ _ (HF I J K HI HJ HK)). reflexivity. }
  assert (Hcn : forall e s, e < ne -> s < npe -> holds (m_conn m) (e * w + s) (cn e s) /\ cn e s < nv).
  { intros e s He Hs. destruct (Hv e s He Hs) as (id & Li & Hid). unfold cn. rewrite (holds_getu _ _ _ Hid). auto. }
  assert (HFw : forall s, s < npe -> holds F s (fwd s) /\ fwd s < npe).
  { intros s Hs. destruct (vert_surj p s Hs) as (I & J & K & HI & HJ & HK & ->). rewrite Fv by assumption. split; [auto|apply Hn; assumption]. }
  assert (Hinj : forall s s', s < npe -> s' < npe -> fwd s = fwd s' -> s = s').
  { intros s s' Hs Hs'. destruct (vert_surj p s Hs) as (I & J & K & HI & HJ & HK & ->). destruct (vert_surj p s' Hs') as (I' & J' & K' & HI' & HJ' & HK' & ->).
    rewrite !Fv by assumption. intros E. apply Hn in E; try assumption. destruct E as (-> & -> & ->). reflexivity. }
  destruct (outer_ok rnd nv ne npe w sw (m_conn m) (m_coords m) solution F cn fwd Hcn Lc Lso Hsw HFw Hinj) as (points & sol & hex & elems & E & W & Le & Hc).
  exists (Grid nv points elems sol). split.
  { unfold init_vtk_grid. cbv zeta. fold p. rewrite verts_per_elem_eq. fold npe. rewrite EF. cbn [bind].
    change (loop (m_num_elems m) _ _) with (loop ne (outer rnd npe w sw (m_conn m) (m_coords m) solution F) (repeat None (nv * 3), repeat None nv, repeat None npe, [])).
    rewrite E. reflexivity. }
  cbn [g_num_points g_points g_cells g_scalars]. split; [reflexivity|]. split; [apply (w_lp _ _ _ _ _ _ _ _ _ _ _ _ W)|]. split; [exact Le|].
  destruct W as [Wlp Wls Wp Wu Ws]. split; [|split; [|split]].
  - intros e He. destruct (nth_error elems e) as [[t ids]|] eqn:N; [|apply nth_error_None in N; lia]. destruct (Hc e _ N) as (T & Li & Hi). cbn [fst snd] in *. subst t.
    exists ids. split; [reflexivity|]. split; [exact Li|]. intros I J K id HI HJ HK Hid. specialize (Hi (vert p I J K) ltac:(apply vert_lt; assumption)).
    rewrite Fv in Hi by assumption. destruct (Hcn e (vert p I J K) He ltac:(apply vert_lt; assumption)) as (Hcv & _). rewrite (holds_inj _ _ _ _ Hid Hcv). exact Hi.
  - intros id c (e & s & He & Hs & Hid) Hc3. destruct (Hcn e s He Hs) as (Hcv & _). rewrite (holds_inj _ _ _ _ Hid Hcv). apply Wp; try assumption. unfold before. lia.
  - intros id c Hid Nu Hc3. apply Wu; [exact Hid| |exact Hc3]. intros e s _ He Hs Eq. apply Nu. exists e, s. split; [exact He|]. split; [exact Hs|]. rewrite <- Eq. apply Hcn; assumption.
  - intros id e s He Hs Hid Last. destruct (Hcn e s He Hs) as (Hcv & _). rewrite (holds_inj _ _ _ _ Hid Hcv). apply Ws; try assumption; [unfold before; lia|].
    intros e2 s2 B2 _ He2 Hs2 Eq. destruct (Hcn e2 s2 He2 Hs2) as (H2 & _). rewrite Eq, <- (holds_inj _ _ _ _ Hid Hcv) in H2. specialize (Last e2 s2 He2 Hs2 H2). unfold before in B2. lia.
Qed.

(** In particular a solution with one value per node is written as it is. *)
Corollary C40_write_solution : forall D pif (rnd : D -> D) (m : mesh D) sw solution g (u : nat -> D), let p := m_order m in
  numbers_vertices p (pif p) -> (N.of_nat (num_verts p) <= 2 ^ 64)%N -> mesh_ok m -> num_verts p <= sw -> length solution = m_num_elems m * sw ->
  init_vtk_grid pif rnd m sw solution = Ok g ->
  (forall e s id, e < m_num_elems m -> s < num_verts p -> holds (m_conn m) (e * m_width m + s) id -> holds solution (e * sw + s) (u id)) ->
  forall id, used m id -> holds (g_scalars g) id (u id).
Proof.
  intros D pif rnd m sw solution g u p Hn B Hm Hsw Lso Eg Hu id (e0 & s0 & He0 & Hs0 & Hid0).
  destruct (C40_write D pif rnd m sw solution Hn B Hm Hsw Lso) as (g' & Eg' & _ & _ & _ & _ & _ & _ & Hsc). rewrite Eg in Eg'. inversion Eg'; subst g'. fold p in Hsc.
  (* the last vertex at the node *)
  set (npe := num_verts p) in *. set (ne := m_num_elems m) in *.
  assert (Q : forall n, (exists e s, e < ne /\ s < npe /\ holds (m_conn m) (e * m_width m + s) id /\ ne * npe <= e * npe + s + n) ->
     exists e s, e < ne /\ s < npe /\ holds (m_conn m) (e * m_width m + s) id /\ forall e' s', e' < ne -> s' < npe -> holds (m_conn m) (e' * m_width m + s') id -> e' < e \/ (e' = e /\ s' <= s)).
  { induction n as [|n IH]; intros (e & s & He & Hs & Hid & Ln).
    - exfalso. nia.
    - assert (Dec : (exists e' s', e' < ne /\ s' < npe /\ holds (m_conn m) (e' * m_width m + s') id /\ e * npe + s < e' * npe + s') \/
                    (forall e' s', e' < ne -> s' < npe -> holds (m_conn m) (e' * m_width m + s') id -> e' * npe + s' <= e * npe + s)).
      { assert (Pd : forall x, { (fun x : nat * nat => holds (m_conn m) (fst x * m_width m + snd x) id /\ e * npe + s < fst x * npe + snd x) x } + { ~ (fun x : nat * nat => holds (m_conn m) (fst x * m_width m + snd x) id /\ e * npe + s < fst x * npe + snd x) x }).
        { intros [e' s']. cbn [fst snd]. destruct (lt_dec (e * npe + s) (e' * npe + s')); [|right; tauto]. unfold holds. destruct (nth_error (m_conn m) (e' * m_width m + s')) as [[i|]|]; [|right; intros [X _]; discriminate..].
          destruct (Nat.eq_dec i id) as [->|Ni]; [left; auto|right; intros [X _]; inversion X; contradiction]. }
        destruct (Exists_dec _ (pairs ne npe) Pd) as [Ex|Nx].
        - left. apply Exists_exists in Ex. destruct Ex as ([e' s'] & P & Hh & Hl). apply pairs_In in P. exists e', s'. cbn [fst snd] in *. tauto.
        - right. intros e' s' He' Hs' Hh. destruct (le_lt_dec (e' * npe + s') (e * npe + s)) as [|Lt]; [assumption|]. exfalso. apply Nx. apply Exists_exists. exists (e', s'). split; [apply pairs_In; auto|]. cbn [fst snd]. auto. }
      destruct Dec as [(e' & s' & He' & Hs' & Hh & Hl)|Hmax].
      + apply IH. exists e', s'. repeat split; try assumption. lia.
      + exists e, s. repeat split; try assumption. intros e' s' He' Hs' Hh. specialize (Hmax e' s' He' Hs' Hh). destruct (Nat.lt_trichotomy e' e) as [|[|]]; [left; assumption|right; nia|exfalso; nia]. }
  destruct (Q (ne * npe)) as (e & s & He & Hs & Hid & Last). { exists e0, s0. repeat split; try assumption. lia. }
  unfold holds. rewrite (Hsc id e s He Hs Hid Last). apply Hu; assumption.
Qed.

(** Reading: the coordinates of all points, and each element's vertices in swage's order; the rows of the connectivity table are longer than
    the number of vertices, the rest of them stays unset. *)
Theorem C40_read : forall D pif p (g : grid D) m, numbers_vertices p (pif p) -> (N.of_nat (num_verts p) <= 2 ^ 64)%N ->
  length (g_points g) = g_num_points g * 3 ->
  (forall e t ids, nth_error (g_cells g) e = Some (t, ids) -> t <> OtherCell /\ forall v, v < num_verts p -> exists id, holds ids v id) ->
  exists m', init_swage_mesh pif p g m = Ok (Done m') /\ m_order m' = p /\ m_num_nodes m' = g_num_points g /\ m_num_elems m' = length (g_cells g) /\ m_coords m' = g_points g /\
    length (m_conn m') = m_num_elems m' * m_width m' /\ num_verts p <= m_width m' /\
    (forall e t ids I J K id, nth_error (g_cells g) e = Some (t, ids) -> I <= p -> J <= p -> K <= p -> holds ids (pif p I J K) id -> holds (m_conn m') (e * m_width m' + vert p I J K) id) /\
    (forall e r, e < m_num_elems m' -> num_verts p <= r < m_width m' -> nth_error (m_conn m') (e * m_width m' + r) = Some None).
Proof.
  intros D pif p g m Hn B Lp Hc. destruct (read_ok pif p g m Hn B Lp Hc) as (conn & E & Lc & H1 & H2). eexists. split; [exact E|]. cbn [m_order m_num_nodes m_num_elems m_coords m_width m_conn].
  repeat split; try assumption. apply width_ge.
Qed.

(** Writing a mesh and reading the grid gives the same elements, and the coordinates of every used node in the precision of VTK's point array. *)
Theorem C40_round_trip : forall D pif (rnd : D -> D) (m m0 : mesh D) sw solution, let p := m_order m in
  numbers_vertices p (pif p) -> (N.of_nat (num_verts p) <= 2 ^ 64)%N -> mesh_ok m -> num_verts p <= sw -> length solution = m_num_elems m * sw ->
  exists g m', init_vtk_grid pif rnd m sw solution = Ok g /\ init_swage_mesh pif p g m0 = Ok (Done m') /\
    m_order m' = p /\ m_num_nodes m' = m_num_nodes m /\ m_num_elems m' = m_num_elems m /\ mesh_ok m' /\
    (forall e s id, e < m_num_elems m -> s < num_verts p -> (holds (m_conn m') (e * m_width m' + s) id <-> holds (m_conn m) (e * m_width m + s) id)) /\
    (forall id c, used m id -> c < 3 -> nth_error (m_coords m') (id * 3 + c) = option_map (option_map rnd) (nth_error (m_coords m) (id * 3 + c))) /\
    (forall id c, id < m_num_nodes m -> ~ used m id -> c < 3 -> nth_error (m_coords m') (id * 3 + c) = Some None).
Proof.
  intros D pif rnd m m0 sw solution p Hn B Hm Hsw Lso. destruct (C40_write D pif rnd m sw solution Hn B Hm Hsw Lso) as (g & Eg & Gn & Gp & Gc & Hcell & Hpt & Hun & _). fold p in Hcell, Hpt, Hun.
  destruct Hm as (Lc & Lcn & Hw & Hv). fold p in Hw, Hv.
  destruct (C40_read D pif p g m0 Hn B) as (m' & Em & Mo & Mn & Me & Mc & Ml & Mw & Hr & _).
  - rewrite Gn. exact Gp.
  - intros e t ids N. assert (He : e < m_num_elems m) by (rewrite <- Gc; apply nth_error_Some; rewrite N; discriminate). destruct (Hcell e He) as (ids' & N' & _ & Hi). rewrite N in N'. inversion N'; subst.
    split; [discriminate|]. intros v Hvv. destruct (pif_surj p (pif p) v Hn Hvv) as (I & J & K & HI & HJ & HK & ->). destruct (Hv e (vert p I J K) He ltac:(apply vert_lt; assumption)) as (id & _ & Hid).
    exists id. apply (Hi I J K id HI HJ HK Hid).
  - assert (Fw : forall e s id, e < m_num_elems m -> s < num_verts p -> holds (m_conn m) (e * m_width m + s) id -> holds (m_conn m') (e * m_width m' + s) id).
    { intros e s id He Hs Hid. destruct (vert_surj p s Hs) as (I & J & K & HI & HJ & HK & ->). destruct (Hcell e He) as (ids & N & _ & Hi). apply (Hr e LagrangeHex ids I J K id N HI HJ HK). apply Hi; assumption. }
    exists g, m'. split; [exact Eg|]. split; [exact Em|]. split; [exact Mo|]. split; [lia|]. split; [lia|]. split; [|split; [|split]].
    + unfold mesh_ok. rewrite Mo, Mc. split; [rewrite Mn, Gn; exact Gp|]. split; [exact Ml|]. split; [exact Mw|].
      intros e s He Hs. rewrite Me, Gc in He. destruct (Hv e s He Hs) as (id & Li & Hid). exists id. split; [lia|]. apply Fw; assumption.
    + intros e s id He Hs. split; [|apply Fw; assumption]. intros Hid. destruct (Hv e s He Hs) as (id' & _ & Hid'). rewrite (holds_inj _ _ _ _ Hid (Fw e s id' He Hs Hid')). exact Hid'.
    + intros id c U Hc3. rewrite Mc. apply Hpt; assumption.
    + intros id c Hid U Hc3. rewrite Mc. apply Hun; assumption.
Qed.

(** Reading a grid and writing the mesh gives the same cells, as Lagrange cells, and the same points where a cell uses them. *)
Theorem C40_round_trip_grid : forall D pif (rnd : D -> D) p (g : grid D) m0 sw solution, numbers_vertices p (pif p) -> (N.of_nat (num_verts p) <= 2 ^ 64)%N ->
  length (g_points g) = g_num_points g * 3 -> num_verts p <= sw -> length solution = length (g_cells g) * sw ->
  (forall e t ids, nth_error (g_cells g) e = Some (t, ids) -> t <> OtherCell /\ length ids = num_verts p /\ forall v, v < num_verts p -> exists id, id < g_num_points g /\ holds ids v id) ->
  exists m g', init_swage_mesh pif p g m0 = Ok (Done m) /\ init_vtk_grid pif rnd m sw solution = Ok g' /\
    g_num_points g' = g_num_points g /\ g_cells g' = map (fun c => (LagrangeHex, snd c)) (g_cells g) /\
    (forall e t ids v id c, nth_error (g_cells g) e = Some (t, ids) -> holds ids v id -> c < 3 -> nth_error (g_points g') (id * 3 + c) = option_map (option_map rnd) (nth_error (g_points g) (id * 3 + c))).
Proof.
  intros D pif rnd p g m0 sw solution Hn B Lp Hsw Lso Hc.
  destruct (C40_read D pif p g m0 Hn B Lp) as (m & Em & Mo & Mn & Me & Mc & Ml & Mw & Hr & _).
  { intros e t ids N. destruct (Hc e t ids N) as (T & _ & Hi). split; [exact T|]. intros v Hv. destruct (Hi v Hv) as (id & _ & Hid). eauto. }
  assert (Cell : forall e, e < length (g_cells g) -> exists t ids, nth_error (g_cells g) e = Some (t, ids)).
  { intros e He. destruct (nth_error (g_cells g) e) as [[t ids]|] eqn:N; [eauto|]. apply nth_error_None in N. lia. }
  assert (Hm : mesh_ok m).
  { unfold mesh_ok. rewrite Mo, Mc, Mn. split; [exact Lp|]. split; [exact Ml|]. split; [exact Mw|]. intros e s He Hs. rewrite Me in He. destruct (Cell e He) as (t & ids & N).
    destruct (vert_surj p s Hs) as (I & J & K & HI & HJ & HK & ->). destruct (Hc e t ids N) as (_ & _ & Hi). destruct (Hi (pif p I J K)) as (id & Li & Hid); [apply Hn; assumption|].
    exists id. split; [exact Li|]. apply (Hr e t ids I J K id); assumption. }
  destruct (C40_write D pif rnd m sw solution) as (g' & Eg & Gn & Gp & Gc & Hcell & Hpt & Hun & _); try (rewrite Mo; assumption); [exact Hm|rewrite Me; exact Lso|].
  rewrite Mo in *. exists m, g'. split; [exact Em|]. split; [exact Eg|]. split; [lia|].
  assert (Ids : forall e t ids, nth_error (g_cells g) e = Some (t, ids) -> nth_error (g_cells g') e = Some (LagrangeHex, ids)).
  { intros e t ids N. assert (He : e < length (g_cells g)) by (apply nth_error_Some; rewrite N; discriminate). destruct (Hcell e) as (ids' & N' & L' & Hi'); [lia|]. rewrite N'. do 2 f_equal.
    destruct (Hc e t ids N) as (_ & Li & Hi). apply list_ext; [lia|]. intros v Hv. rewrite L' in Hv. destruct (Hi v Hv) as (id & _ & Hid).
    destruct (pif_surj p (pif p) v Hn Hv) as (I & J & K & HI & HJ & HK & ->). assert (H2 : holds ids' (pif p I J K) id). { apply Hi'; try assumption. apply (Hr e t ids I J K id); assumption. }
    unfold holds in Hid, H2. congruence. }
  split.
  - apply list_ext; [rewrite map_length; lia|]. intros e He. rewrite Gc, Me in He. destruct (Cell e He) as (t & ids & N). rewrite (Ids e t ids N). rewrite nth_error_map, N. reflexivity.
  - intros e t ids v id c N Hid Hc3. rewrite <- Mc. apply Hpt; [|exact Hc3]. destruct (Hc e t ids N) as (_ & Li & Hi).
    assert (Hv : v < num_verts p) by (rewrite <- Li; apply nth_error_Some; rewrite Hid; discriminate).
    destruct (pif_surj p (pif p) v Hn Hv) as (I & J & K & HI & HJ & HK & ->). exists e, (vert p I J K). rewrite Mo, Me. split; [apply nth_error_Some; rewrite N; discriminate|]. split; [apply vert_lt; assumption|].
    apply (Hr e t ids I J K id); assumption.
Qed.

(** A cell of another type: the exception names the first one; the nodes of the mesh have already been replaced, the elements have not. *)
Theorem C40_bad_cell : forall D pif p (g : grid D) m c ids, length (g_points g) = g_num_points g * 3 ->
  nth_error (g_cells g) c = Some (OtherCell, ids) -> (forall e t ids, e < c -> nth_error (g_cells g) e = Some (t, ids) -> t <> OtherCell) ->
  exists m', init_swage_mesh pif p g m = Ok (Thrown c m') /\ m_coords m' = g_points g /\ m_num_nodes m' = g_num_points g /\
    m_order m' = m_order m /\ m_num_elems m' = m_num_elems m /\ m_width m' = m_width m /\ m_conn m' = m_conn m.
Proof.
  intros D pif p g m c ids Lp N Hf. unfold init_swage_mesh. cbv zeta. cbn [init_nodes m_coords m_order m_num_nodes m_num_elems m_width m_conn].
  change (loop (g_num_points g) _ _) with (loop (g_num_points g) (copy_point (g_points g)) (repeat None (g_num_points g * 3))).
  rewrite copy_points by exact Lp. cbn [bind]. rewrite (first_bad_some 0 _ c ids N Hf). eexists. split; [reflexivity|]. cbn. repeat split.
Qed.

(** A cell with fewer points than the given order needs (a triquadratic cell read with an order above 2, say): its id list is read past its end. *)
Theorem C40_short_cell : forall D pif p (g : grid D) m e t ids, numbers_vertices p (pif p) -> (N.of_nat (num_verts p) <= 2 ^ 64)%N -> length (g_points g) = g_num_points g * 3 ->
  (forall e t ids, nth_error (g_cells g) e = Some (t, ids) -> t <> OtherCell) ->
  nth_error (g_cells g) e = Some (t, ids) -> length ids < num_verts p -> (forall v, v < length ids -> exists id, holds ids v id) ->
  (forall e' t' ids', e' < e -> nth_error (g_cells g) e' = Some (t', ids') -> forall v, v < num_verts p -> exists id, holds ids' v id) ->
  init_swage_mesh pif p g m = Err OOB.
Proof.
  intros D pif p g m e t ids Hn B Lp Ht Ne Ls Hs Hb. unfold init_swage_mesh. cbv zeta. cbn [init_nodes m_coords m_order m_num_nodes m_num_elems m_width m_conn].
  change (loop (g_num_points g) _ _) with (loop (g_num_points g) (copy_point (g_points g)) (repeat None (g_num_points g * 3))).
  rewrite copy_points by exact Lp. cbn [bind]. rewrite first_bad_none by (intros e1 t1 i1 H1; apply (Ht e1 t1 i1 H1)).
  rewrite verts_per_elem_eq. destruct (map_reverse pif p Hn B) as (G & -> & LG & HG). cbn [bind]. cbn [init_elements m_coords m_order m_num_nodes m_num_elems m_width m_conn].
  set (ne := length (g_cells g)). set (w := ms_nodes_in_elem (init_element p 3 ne)). assert (Hw : num_verts p <= w) by apply width_ge.
  assert (He : e < ne) by (apply nth_error_Some; unfold ne; rewrite Ne; discriminate).
  assert (Gl : forall v, v < num_verts p -> exists s, getu G v = Ok s /\ s < num_verts p).
  { intros v Hv. destruct (pif_surj p (pif p) v Hn Hv) as (I & J & K & HI & HJ & HK & ->). exists (vert p I J K). split; [apply holds_getu; apply HG; assumption|apply vert_lt; assumption]. }
  match goal with |- context [loop ne ?b ?s] => set (body := b); set (s0 := s) end.
  assert (Run : forall (c : list (option nat)) (e' : nat) (t' : cell_type) (ids' : list (option nat)) (n : nat), length c = ne * w -> e' < ne -> n <= num_verts p -> (forall v, v < n -> exists id, holds ids' v id) ->
     exists c' : list (option nat), loop n (fun vtk c => do gid <- getu (snd (t', ids')) vtk; do swg <- getu G vtk; set c (e' * w + swg) (Some gid)) c = Ok c' /\ length c' = ne * w).
  { intros c e' t' ids' n Lc He' Hn' Hi. destruct (loop_inv (fun _ c => length c = ne * w) n (fun vtk c => do gid <- getu (snd (t', ids')) vtk; do swg <- getu G vtk; set c (e' * w + swg) (Some gid)) c Lc) as (c' & E & H').
    - intros v c1 Hv L1. destruct (Hi v Hv) as (id & Hid). cbn [snd]. rewrite (holds_getu _ _ _ Hid). cbn [bind]. destruct (Gl v) as (s & -> & Lt); [lia|]. cbn [bind]. rewrite set_ok by nia. eexists. split; [reflexivity|]. rewrite upd_length. exact L1.
    - eauto. }
  assert (E1 : loop ne body s0 = Err OOB); [|rewrite E1; reflexivity].
  assert (Split : ne = e + S (ne - e - 1)) by lia. unfold loop. rewrite Split. clear Split.
  assert (A : forall n lo k (f : nat -> list (option nat) -> res (list (option nat))) s, loop_from lo (n + k) f s = (do s <- loop_from lo n f s; loop_from (lo + n) k f s)).
  { induction n as [|n IH]; intros lo k f s; cbn [loop_from Nat.add bind]; [rewrite Nat.add_0_r; reflexivity|]. destruct (f lo s); cbn [bind]; [|reflexivity]. rewrite IH, <- Nat.add_succ_comm. reflexivity. }
  rewrite A. destruct (loop_inv (fun _ c => length c = ne * w) e body s0) as (c & E & Lc).
  - apply repeat_length.
  - intros e' c Hlt L1. unfold body. destruct (get_lt (g_cells g) e') as ([t' ids'] & N' & ->); [unfold ne in He; lia|]. cbn [bind]. apply Run; try assumption; [lia|lia|]. apply (Hb e' t' ids' Hlt N').
  - unfold loop in E. rewrite E. cbn [bind loop_from Nat.add]. replace (body e c) with (Err (A := list (option nat)) OOB); [reflexivity|]. symmetry. unfold body. unfold get. rewrite Ne. cbn [bind].
    assert (Sp2 : num_verts p = length ids + S (num_verts p - length ids - 1)) by lia. unfold loop. rewrite Sp2, A.
    destruct (Run c e t ids (length ids) Lc He ltac:(lia) Hs) as (c' & E2 & _). unfold loop in E2. rewrite E2. cbn [bind loop_from Nat.add snd]. unfold getu at 1.
    replace (nth_error ids (length ids)) with (@None (option nat)); [reflexivity|]. symmetry. apply nth_error_None. lia.
Qed.

(** * C53 *)
Lemma chars_eqb_eq a b : chars_eqb a b = true <-> a = b.
Proof.
  revert b. induction a as [|x a IH]; intros [|y b]; cbn; split; intros H; try discriminate; try reflexivity.
  - apply andb_true_iff in H. destruct H as (H1 & H2). apply Ascii.eqb_eq in H1. apply IH in H2. subst. reflexivity.
  - inversion H; subst. rewrite Ascii.eqb_refl. apply IH. reflexivity.
Qed.
Lemma from_last_dot_spec name : match from_last_dot name with
  | Some e => exists pre t, name = pre ++ dot :: t /\ e = dot :: t /\ ~ In dot t
  | None => ~ In dot name end.
Proof.
  induction name as [|c name IH]; cbn; [auto|]. destruct (from_last_dot name) as [e|].
  - destruct IH as (pre & t & -> & -> & N). exists (c :: pre), t. auto.
  - destruct (Ascii.eqb_spec c dot) as [->|Nc].
    + exists [], name. auto.
    + intros [H|H]; [congruence|contradiction].
Qed.
Lemma last_dot_unique (pre t pre' t' : list ascii) : pre ++ dot :: t = pre' ++ dot :: t' -> ~ In dot t -> ~ In dot t' -> t = t'.
Proof.
  revert pre'. induction pre as [|x pre IH]; intros [|y pre'] E N N'; cbn in E.
  - inversion E. reflexivity.
  - inversion E. exfalso. apply N. subst. apply in_app_iff. right. left. reflexivity.
  - inversion E. exfalso. apply N'. subst. apply in_app_iff. right. left. reflexivity.
  - inversion E. apply (IH pre'); assumption.
Qed.
Lemma tolower_spec c d : 97 <= nat_of_ascii d <= 122 -> (tolower c = d <-> same_letter c d).
Proof.
  intros Hd. unfold tolower, same_letter. cbv zeta. destruct (Nat.leb_spec 65 (nat_of_ascii c)), (Nat.leb_spec (nat_of_ascii c) 90); cbn [andb].
  - split.
    + intros <-. right. split; [lia|]. rewrite nat_ascii_embedding by lia. reflexivity.
    + intros [->|[_ E]]; [lia|]. rewrite <- E. apply ascii_nat_embedding.
  - split; [auto|intros [->|[? _]]; [reflexivity|lia]].
  - split; [auto|intros [->|[? _]]; [reflexivity|lia]].
  - split; [auto|intros [->|[? _]]; [reflexivity|lia]].
Qed.
Lemma tolower_dot : tolower dot = dot. Proof. reflexivity. Qed.
Lemma tolower_only_dot c : tolower c = dot -> c = dot.
Proof.
  unfold tolower. cbv zeta. destruct (Nat.leb_spec 65 (nat_of_ascii c)), (Nat.leb_spec (nat_of_ascii c) 90); cbn [andb]; auto.
  intros E. apply (f_equal nat_of_ascii) in E. rewrite nat_ascii_embedding in E by lia. change (nat_of_ascii dot) with 46 in E. lia.
Qed.

Lemma ext_spec name (a b c : ascii) : 97 <= nat_of_ascii a <= 122 -> 97 <= nat_of_ascii b <= 122 -> 97 <= nat_of_ascii c <= 122 ->
  (extension name = [dot; a; b; c] <-> exists pre x y z, name = pre ++ [dot; x; y; z] /\ same_letter x a /\ same_letter y b /\ same_letter z c).
Proof.
  intros Ha Hb Hc. unfold extension. pose proof (from_last_dot_spec name) as S.
  assert (NoDot : forall x d, 97 <= nat_of_ascii d <= 122 -> same_letter x d -> x <> dot).
  { intros x d Hd H ->. unfold same_letter in H. change (nat_of_ascii dot) with 46 in H. destruct H as [<-|[? _]]; [change (nat_of_ascii dot) with 46 in Hd; lia|lia]. }
  destruct (from_last_dot name) as [e|]; split.
  - destruct S as (pre & t & -> & -> & N). cbn [map]. rewrite tolower_dot. intros E. inversion E as [E1]. destruct t as [|x [|y [|z [|q t]]]]; try discriminate E1. inversion E1 as [[E2 E3 E4]].
    exists pre, x, y, z. split; [reflexivity|]. rewrite E2, E3, E4. repeat split; apply tolower_spec; assumption.
  - intros (pre' & x & y & z & E & Sx & Sy & Sz). destruct S as (pre & t & -> & -> & N). assert (t = [x; y; z]).
    { apply (last_dot_unique pre t pre' [x; y; z] E N). intros [D|[D|[D|[]]]]; [apply (NoDot x a Ha Sx D)|apply (NoDot y b Hb Sy D)|apply (NoDot z c Hc Sz D)]. }
    subst t. cbn [map]. rewrite tolower_dot. apply tolower_spec in Sx, Sy, Sz; try assumption. rewrite Sx, Sy, Sz. reflexivity.
  - discriminate.
  - intros (pre & x & y & z & -> & _). exfalso. apply S. apply in_app_iff. right. left. reflexivity.
Qed.

(** The format is chosen by the last four characters, in upper or lower case; any other name selects nothing. *)
Theorem C53_dispatch : forall name,
  (choose_format name = Some XmlUnstructured <-> exists pre x y z, name = pre ++ ["."; x; y; z]%char /\ same_letter x "v" /\ same_letter y "t" /\ same_letter z "u") /\
  (choose_format name = Some LegacyUnstructured <-> exists pre x y z, name = pre ++ ["."; x; y; z]%char /\ same_letter x "v" /\ same_letter y "t" /\ same_letter z "k").
Proof.
  intros name.
  assert (V : 97 <= nat_of_ascii "v" <= 122) by (vm_compute; lia). assert (T : 97 <= nat_of_ascii "t" <= 122) by (vm_compute; lia).
  assert (U : 97 <= nat_of_ascii "u" <= 122) by (vm_compute; lia). assert (K : 97 <= nat_of_ascii "k" <= 122) by (vm_compute; lia).
  pose proof (ext_spec name "v" "t" "u" V T U) as Eu. pose proof (ext_spec name "v" "t" "k" V T K) as Ek. change dot with "."%char in Eu, Ek. unfold choose_format.
  rewrite <- Eu, <- Ek. split.
  - split; intros H.
    + destruct (chars_eqb (extension name) ["."; "v"; "t"; "u"]%char) eqn:E; [apply chars_eqb_eq; exact E|]. destruct (chars_eqb (extension name) ["."; "v"; "t"; "k"]%char); discriminate.
    + rewrite H. reflexivity.
  - split; intros H.
    + destruct (chars_eqb (extension name) ["."; "v"; "t"; "u"]%char) eqn:E; [discriminate|]. destruct (chars_eqb (extension name) ["."; "v"; "t"; "k"]%char) eqn:E2; [apply chars_eqb_eq; exact E2|discriminate].
    + rewrite H. reflexivity.
Qed.

(** Writing touches only the named file, in the chosen format; with another extension nothing is written and reading gives the null grid;
    what was written is read back with the reader of the same format. *)
Theorem C53_files : forall G F (encode : format -> G -> F) (decode : format -> option F -> G) g fs name,
  (choose_format name = None -> write_grid encode g fs name = fs /\ read_grid decode fs name = None) /\
  (forall f, choose_format name = Some f -> write_grid encode g fs name name = Some (encode f g) /\
     (forall other, other <> name -> write_grid encode g fs name other = fs other) /\
     read_grid decode (write_grid encode g fs name) name = Some (decode f (Some (encode f g)))).
Proof.
  intros G F encode decode g fs name. split.
  - intros E. unfold write_grid, read_grid. rewrite E. auto.
  - intros f E. assert (W : write_grid encode g fs name name = Some (encode f g)). { unfold write_grid. rewrite E. replace (chars_eqb name name) with true; [reflexivity|]. symmetry. apply chars_eqb_eq. reflexivity. }
    split; [exact W|]. split.
    + intros o No. unfold write_grid. rewrite E. destruct (chars_eqb o name) eqn:Q; [apply chars_eqb_eq in Q; contradiction|reflexivity].
    + unfold read_grid. rewrite E, W. reflexivity.
Qed.

(** * non-vacuity *)
Example C53_nonvacuous : choose_format ["a"; "."; "b"; "."; "V"; "t"; "U"]%char = Some XmlUnstructured /\ choose_format ["m"; "."; "v"; "t"; "k"]%char = Some LegacyUnstructured /\
  choose_format ["m"; "."; "v"; "t"; "u"; "/"; "x"]%char = None /\ choose_format ["v"; "t"; "u"]%char = None.
Proof. repeat split. Qed.

(** two elements of order 1 sharing a face: 12 nodes; node 12 is not used *)
Definition ex_mesh : mesh nat := Mesh 1 13 2 (map Some (seq 0 39)) 27
  (map Some [0; 1; 3; 4; 6; 7; 9; 10] ++ repeat None 19 ++ map Some [1; 2; 4; 5; 7; 8; 10; 11] ++ repeat None 19).
Example C40_nonvacuous : mesh_ok ex_mesh /\ used ex_mesh 11 /\ ~ used ex_mesh 12 /\ numbers_vertices 1 (vtk_index 1) /\
  exists g, init_vtk_grid vtk_index (fun x => x) ex_mesh 8 (map Some (seq 100 16)) = Ok g /\ nth_error (g_cells g) 1 = Some (LagrangeHex, map Some [1; 2; 5; 4; 7; 8; 11; 10]) /\ nth_error (g_scalars g) 1 = Some (Some 108).
Proof.
  assert (Hc : forall e s, e < 2 -> s < 8 -> exists id, id < 12 /\ holds (m_conn ex_mesh) (e * 27 + s) id).
  { intros e s He Hs. destruct e as [|[|e]]; [| |lia]; do 8 (destruct s as [|s]; [eexists; split; [|vm_compute; reflexivity]; lia|]); lia. }
  split; [|split; [|split; [|split; [apply vtk_index_numbers|]]]].
  - unfold mesh_ok. split; [reflexivity|]. split; [reflexivity|]. split; [vm_compute; lia|]. intros e s He Hs. destruct (Hc e s He Hs) as (id & Li & Hid). exists id. split; [cbn; lia|exact Hid].
  - exists 1, 7. vm_compute. repeat split; lia.
  - intros (e & s & He & Hs & Hid). destruct (Hc e s He Hs) as (id & Li & Hid'). cbn in Hid. rewrite (holds_inj _ _ _ _ Hid' Hid) in Li. lia.
  - eexists. split; [vm_compute; reflexivity|]. split; reflexivity.
Qed.

Print Assumptions C40_vtk_numbering.
Print Assumptions C40_maps.
Print Assumptions C40_short_map.
Print Assumptions C40_write.
Print Assumptions C40_write_solution.
Print Assumptions C40_read.
Print Assumptions C40_round_trip.
Print Assumptions C40_round_trip_grid.
Print Assumptions C40_bad_cell.
Print Assumptions C40_short_cell.
Print Assumptions C53_dispatch.
Print Assumptions C53_files.
