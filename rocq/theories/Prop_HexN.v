(** The arbitrary-order Lagrange elements HexN and QuadN: C47, C57 and the HexN part of C46.
    Vocabulary: Spec_HexN.v ([nodes_1d], [verts_1d], [vert_at], [vert_coord], [gid], [phi2], [sum3]) and
    Spec_Lagrange.v ([distinct], [ell], [phi3], [is_grad]). *)
From Coq Require Import List Arith Lia Bool Reals Lra.
Import ListNotations.
Require Import Verif.Base Verif.RBase Verif.RSum Verif.Spec_Lagrange Verif.Spec_Ref Verif.Model_Ref Verif.Model_HexN Verif.Spec_HexN
  Verif.Proof_HexN Verif.Proof_HexN2 Verif.Proof_HexN3 Verif.Proof_QuadN Verif.Proof_Ref5.
Local Open Scope nat_scope.

(** C47: for every order and every table of 1D nodes whose vertices are pairwise distinct, and whatever
    the output arrays held, basis returns the tensor Lagrange polynomials at every point and the three
    partial_* functions their partial derivatives; nothing divides by zero on the way. *)
Theorem C47_hexn_basis_and_partials : forall p lob, length lob = nodes_1d p -> distinct (verts_1d p) (vert_coord p lob) ->
  exists h, setup_hexn p lob = Ok h /\ forall x y z ob oxi oeta omu,
   verts_1d p * verts_1d p * verts_1d p <= length ob -> verts_1d p * verts_1d p * verts_1d p <= length oxi ->
   verts_1d p * verts_1d p * verts_1d p <= length oeta -> verts_1d p * verts_1d p * verts_1d p <= length omu ->
   exists b bx be bm, hexn_basis h ob x y z = Ok b /\ hexn_partial_xi h oxi x y z = Ok bx /\
    hexn_partial_eta h oeta x y z = Ok be /\ hexn_partial_mu h omu x y z = Ok bm /\
    forall i j k, i < verts_1d p -> j < verts_1d p -> k < verts_1d p ->
      getu b (gid (verts_1d p) i j k) = Ok (phi3 (verts_1d p) (vert_coord p lob) i j k x y z) /\
      exists gx gy gz, getu bx (gid (verts_1d p) i j k) = Ok gx /\ getu be (gid (verts_1d p) i j k) = Ok gy /\
        getu bm (gid (verts_1d p) i j k) = Ok gz /\ is_grad (phi3 (verts_1d p) (vert_coord p lob) i j k) x y z (gx, gy, gz).
Proof. exact hexn_all. Qed.
Print Assumptions C47_hexn_basis_and_partials.

(** C47: basis function v is 1 at the node vert_node_map(v) and 0 at the nodes of the other vertices;
    at every point the basis functions add up to 1. *)
Theorem C47_hexn_nodal_and_unity : forall p lob, length lob = nodes_1d p -> distinct (verts_1d p) (vert_coord p lob) ->
  exists h, setup_hexn p lob = Ok h /\
   (forall w, w < verts_1d p * verts_1d p * verts_1d p ->
     exists r x y z b, hexn_vert_node h w = Ok r /\ hexn_node_coords h r 0 = Ok x /\ hexn_node_coords h r 1 = Ok y /\ hexn_node_coords h r 2 = Ok z /\
      hexn_basis h (repeat None (verts_1d p * verts_1d p * verts_1d p)) x y z = Ok b /\
      forall v, v < verts_1d p * verts_1d p * verts_1d p -> getu b v = Ok (if v =? w then 1%R else 0%R)) /\
   (forall x y z, exists b val, hexn_basis h (repeat None (verts_1d p * verts_1d p * verts_1d p)) x y z = Ok b /\
      (forall v, v < verts_1d p * verts_1d p * verts_1d p -> getu b v = Ok (val v)) /\
      rsum (verts_1d p * verts_1d p * verts_1d p) val = 1%R).
Proof. exact hexn_nodal. Qed.
Print Assumptions C47_hexn_nodal_and_unity.

(** C47: an order whose number of 1D nodes the Lobatto table does not know (nothing is written) makes
    the set-up read unset memory. *)
Theorem C47_hexn_unknown_order : forall p, setup_hexn p [] = Err Uninit.
Proof. exact setup_unset. Qed.
Print Assumptions C47_hexn_unknown_order.

(** C46 (HexN part): node (i,j,k) has coordinates (lob_i, lob_j, lob_k) and vertex (a,b,c) is mapped to
    the node at the vertex's own position: every other node per direction (all of them at order 0). *)
Theorem C46_hexn_vertex_map : forall p lob, length lob = nodes_1d p ->
  exists h, setup_hexn p lob = Ok h /\
   (forall i j k d, i < nodes_1d p -> j < nodes_1d p -> k < nodes_1d p -> d < 3 ->
      hexn_node_coords h (gid (nodes_1d p) i j k) d = Ok (nth (coord d i j k) lob 0%R)) /\
   (forall a b c, a < verts_1d p -> b < verts_1d p -> c < verts_1d p ->
      hexn_vert_node h (gid (verts_1d p) a b c) = Ok (gid (nodes_1d p) (vert_at p a) (vert_at p b) (vert_at p c))).
Proof.
  intros p lob L. destruct (setup_ok p lob L) as (h & E & _ & _ & _ & H1 & H2). exists h. auto.
Qed.
Print Assumptions C46_hexn_vertex_map.

(** C47: QuadN::basis_partials, whatever the caller's arrays held (if they are large enough). *)
Theorem C47_quadn : forall orderN vs Z x y w, let N := orderN + 1 in distinct N Z -> holds N vs Z -> quad_room N w ->
  exists w', quad_basis_partials orderN vs x y w = Ok w' /\
   forall i j, i < N -> j < N ->
     getu (qw_nodes w') ((i + j * N) * 2 + 0) = Ok (Z i) /\ getu (qw_nodes w') ((i + j * N) * 2 + 1) = Ok (Z j) /\
     getu (qw_basis w') (i + j * N) = Ok (phi2 N Z i j x y) /\
     exists gx gy, getu (qw_part w') ((i + j * N) * 2 + 0) = Ok gx /\ getu (qw_part w') ((i + j * N) * 2 + 1) = Ok gy /\
       is_grad2 (phi2 N Z i j) x y gx gy.
Proof. exact quadn_all. Qed.
Print Assumptions C47_quadn.

(** C47: the four corners are (first,first), (last,first), (first,last), (last,last). *)
Theorem C47_quadn_corners : forall orderN vs Z x y w lc, let N := orderN + 1 in distinct N Z -> holds N vs Z -> quad_room N w -> 8 <= length lc ->
  exists w' lc', quad_basis_partials orderN vs x y w = Ok w' /\ quad_corners orderN (qw_nodes w') lc = Ok lc' /\
   forall c, c < 4 -> getu lc' (c * 2 + 0) = Ok (if c mod 2 =? 0 then Z 0 else Z (N - 1)) /\
                      getu lc' (c * 2 + 1) = Ok (if c / 2 =? 0 then Z 0 else Z (N - 1)).
Proof. exact quadn_corners. Qed.
Print Assumptions C47_quadn_corners.

(** C47: QuadN::physical_position adds the interpolated position to what the output held: it is the
    position only if the caller zeroed it. *)
Theorem C47_quadn_position_accumulates : forall orderN xp nd bs (x0 : nat -> R) (c : nat -> nat -> R) (b : nat -> R),
  let n2 := (orderN + 1) * (orderN + 1) in
  length xp = 2 -> (forall d, d < 2 -> getu xp d = Ok (x0 d)) ->
  (forall v d, v < n2 -> d < 2 -> getu nd (v * 2 + d) = Ok (c v d)) -> holds n2 bs b ->
  exists xp', quad_physical_position orderN xp nd bs = Ok xp' /\
   forall d, d < 2 -> getu xp' d = Ok (x0 d + rsum n2 (fun v => c v d * b v))%R.
Proof. exact quad_physical_ok. Qed.
Print Assumptions C47_quadn_position_accumulates.

(** C57: for every table of [m] points with all coordinates set, the basis and gradient tables hold the
    values and partial derivatives of the basis functions at those points; per point the values add up
    to 1, the gradients to 0, and weighting by the vertex coordinates reproduces the point and the
    identity matrix.  [np] is the length of the scratch arrays (num_ref_nodes_in_elem_). *)
Theorem C57_tables : forall p lob m pos P np, length lob = nodes_1d p -> distinct (verts_1d p) (vert_coord p lob) ->
  (forall r d, r < m -> d < 3 -> getu pos (r * 3 + d) = Ok (P r d)) -> verts_1d p * verts_1d p * verts_1d p <= np ->
  exists h tb tg, setup_hexn p lob = Ok h /\
   let n := verts_1d p in let nb := n * n * n in let Z := vert_coord p lob in
   basis_table h m nb pos = Ok tb /\ gradient_table h m nb np pos = Ok tg /\
   (forall r i j k, r < m -> i < n -> j < n -> k < n -> exists gx gy gz,
      ref_basis nb tb r (gid n i j k) = Ok (phi3 n Z i j k (P r 0) (P r 1) (P r 2)) /\
      ref_gradient nb tg r (gid n i j k) 0 = Ok gx /\ ref_gradient nb tg r (gid n i j k) 1 = Ok gy /\
      ref_gradient nb tg r (gid n i j k) 2 = Ok gz /\ is_grad (phi3 n Z i j k) (P r 0) (P r 1) (P r 2) (gx, gy, gz)) /\
   (forall r, r < m -> exists B G, (forall i j k, i < n -> j < n -> k < n ->
        ref_basis nb tb r (gid n i j k) = Ok (B i j k) /\ forall d, d < 3 -> ref_gradient nb tg r (gid n i j k) d = Ok (G i j k d)) /\
      sum3 n B = 1%R /\ (forall d, d < 3 -> sum3 n (fun i j k => G i j k d) = 0%R) /\
      (forall e, e < 3 -> sum3 n (fun i j k => Z (coord e i j k) * B i j k)%R = P r e) /\
      forall e d, e < 3 -> d < 3 -> sum3 n (fun i j k => Z (coord e i j k) * G i j k d)%R = if e =? d then 1%R else 0%R).
Proof. exact gradient_complete. Qed.
Print Assumptions C57_tables.

(** C57: the nodal tables: the points are the reference nodes the same init function placed. *)
Theorem C57_nodal_tables : forall p lob, length lob = nodes_1d p -> distinct (verts_1d p) (vert_coord p lob) ->
  let n1 := nodes_1d p in let n := verts_1d p in let nb := n * n * n in let m := n1 * n1 * n1 in
  exists pos h tb tg, build_node_pos n1 lob = Ok pos /\ setup_hexn p lob = Ok h /\
   basis_table h m nb pos = Ok tb /\ gradient_table h m nb m pos = Ok tg /\
   forall I J K i j k, I < n1 -> J < n1 -> K < n1 -> i < n -> j < n -> k < n ->
     ref_basis nb tb (gid n1 I J K) (gid n i j k) =
       Ok (phi3 n (vert_coord p lob) i j k (nth I lob 0%R) (nth J lob 0%R) (nth K lob 0%R)) /\
     exists gx gy gz, ref_gradient nb tg (gid n1 I J K) (gid n i j k) 0 = Ok gx /\
       ref_gradient nb tg (gid n1 I J K) (gid n i j k) 1 = Ok gy /\ ref_gradient nb tg (gid n1 I J K) (gid n i j k) 2 = Ok gz /\
       is_grad (phi3 n (vert_coord p lob) i j k) (nth I lob 0%R) (nth J lob 0%R) (nth K lob 0%R) (gx, gy, gz).
Proof.
  intros p lob L D n1 n nb m.
  destruct (grid3 n1 (fun i => get lob i) (fun i => nth i lob 0%R)) as (pos & E & H).
  { intros i Hi. apply get_ok. fold n1 in L. lia. }
  assert (HP : forall r d, r < m -> d < 3 -> getu pos (r * 3 + d) = Ok (nth (coord d (r mod n1) (r / n1 mod n1) (r / n1 / n1)) lob 0%R)).
  { intros r d Hr Hd. destruct (Proof_Ref.pos3 n1 r Hr) as (P1 & P2 & P3 & P4). apply Proof_Ref.getu_nth. rewrite P4 at 1. apply H; assumption. }
  assert (Hm : n * n * n <= m).
  { assert (n <= n1) by (unfold n, n1, verts_1d, nodes_1d; destruct (Nat.eqb_spec p 0); lia). unfold m. apply Nat.mul_le_mono; [apply Nat.mul_le_mono|]; assumption. }
  destruct (gradient_complete p lob m pos _ m L D HP Hm) as (h & tb & tg & Eh & Eb & Eg & F & _).
  exists pos, h, tb, tg. split; [exact E|]. split; [exact Eh|]. split; [exact Eb|]. split; [exact Eg|].
  intros I J K i j k HI HJ HK Hi Hj Hk.
  destruct (F (gid n1 I J K) i j k) as (gx & gy & gz & F1 & F2 & F3 & F4 & F5); try assumption.
  { rewrite <- gid_rid. apply Proof_Ref.rid_lt; assumption. }
  rewrite <- (gid_rid n1 I J K) in *. destruct (Proof_Ref.rid_dec n1 I J K HI HJ) as (A & B & C). rewrite A, B, C in *. cbn [coord] in *.
  split; [exact F1|]. exists gx, gy, gz. auto.
Qed.
Print Assumptions C57_nodal_tables.

Lemma distinct3 : distinct (verts_1d 1) (vert_coord 1 [-1; 0; 1]%R).
Proof.
  intros [|[|i]] [|[|j]] Hi Hj Hne; unfold verts_1d in Hi, Hj; cbn in Hi, Hj; try lia;
  unfold vert_coord, vert_at; cbn [nth Nat.eqb Nat.mul Nat.add]; lra.
Qed.
Example C47_nonvacuous : length [-1; 0; 1]%R = nodes_1d 1 /\ distinct (verts_1d 1) (vert_coord 1 [-1; 0; 1]%R) /\ verts_1d 1 = 2.
Proof. split; [reflexivity|]. split; [exact distinct3|reflexivity]. Qed.
Example C47_quad_nonvacuous : let v := [Some (-1)%R; Some 1%R] in let u n := repeat (@None R) n in
  distinct 2 (fun i => nth i [-1; 1]%R 0%R) /\ holds 2 v (fun i => nth i [-1; 1]%R 0%R) /\
  quad_room 2 {| qw_nodes := u 8; qw_val1 := u 2; qw_dval1 := u 2; qw_val2 := u 8; qw_dval2 := u 8; qw_basis := u 4; qw_part := u 8 |}.
Proof.
  cbv zeta. split; [|split].
  - intros [|[|i]] [|[|j]] Hi Hj Hne; try lia; cbn [nth]; lra.
  - intros [|[|i]] Hi; try lia; reflexivity.
  - unfold quad_room. cbn. lia.
Qed.
