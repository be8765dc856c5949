(** HexN: set-up, vertex map, basis properties. *)
From Coq Require Import List Arith Lia Bool Reals Lra.
Import ListNotations.
Require Import Verif.Base Verif.NatSum Verif.RBase Verif.RSum Verif.RDer Verif.Poly Verif.Spec_Lagrange Verif.Lagrange_Math
  Verif.Proof_LagElem Verif.Spec_Ref Verif.Model_Ref Verif.Proof_Ref Verif.Proof_Ref5 Verif.Model_HexN Verif.Proof_HexN Verif.Spec_HexN.
Local Open Scope nat_scope.

Lemma gid_rid n i j k : rid n i j k = gid n i j k.
Proof. reflexivity. Qed.

Lemma getu_none {A} n i : i < n -> getu (repeat (@None A) n) i = Err Uninit.
Proof. intros H. unfold getu. rewrite nth_error_repeat by exact H. reflexivity. Qed.

Lemma nodes1_ok n1 lob : length lob = n1 -> exists a, hexn_nodes_1d n1 lob = Ok a /\ holds n1 a (fun i => nth i lob 0%R).
Proof.
  intros L. unfold hexn_nodes_1d. rewrite L.
  destruct (fill_ok n1 (fun i => get lob i) (fun i => nth i lob 0%R) (repeat None (n1 * n1 * n1))) as (a & E & _ & H).
  - rewrite repeat_length. nia.
  - intros i Hi. apply get_ok. lia.
  - exists a. split; assumption.
Qed.

Lemma seqfill n (f : nat -> res R) (g : nat -> R) N : n <= N -> (forall i, i < n -> f i = Ok (g i)) ->
  exists a, loop n (fun i '(vs, q) => do x <- f i; do vs' <- set vs q (Some x); Ok (vs', q + 1)) (repeat None N, 0) = Ok (a, n) /\
    holds n a g.
Proof.
  intros L Hf.
  edestruct (loop_inv (fun m '(vs, q) => q = m /\ length vs = N /\ holds m vs g) n) as ([a q] & E & H1 & H2 & H3).
  3: { subst q. exists a. split; [exact E|exact H3]. }
  - cbv beta iota. rewrite repeat_length. split; [reflexivity|]. split; [reflexivity|]. intros i Hi. lia.
  - intros m [vs q] Hm (-> & L2 & H). rewrite Hf by exact Hm. cbn [bind]. rewrite set_ok by lia. cbn [bind].
    eexists. split; [reflexivity|]. cbv beta iota. rewrite upd_length. split; [lia|]. split; [exact L2|].
    intros i Hi. apply getu_nth. rewrite nth_upd by lia. destruct (Nat.eqb_spec i m) as [->|]; [reflexivity|].
    apply getu_ok. apply H. lia.
Qed.

Lemma verts1_ok p lob a : length lob = nodes_1d p -> holds (nodes_1d p) a (fun i => nth i lob 0%R) ->
  exists vs, hexn_verts_1d p (nodes_1d p) (verts_1d p) a = Ok vs /\ holds (verts_1d p) vs (vert_coord p lob).
Proof.
  intros L H. unfold hexn_verts_1d, verts_1d, vert_coord, vert_at, nodes_1d in *. destruct (Nat.eqb_spec p 0) as [->|Hp].
  - destruct (seqfill 2 (fun i => getu a i) (fun i => nth i lob 0%R) 8) as (vs & E & Hv); [lia|exact H|].
    change (2 * 2 * 2) with 8. cbv zeta. rewrite E. cbn [bind]. eexists. split; [reflexivity|exact Hv].
  - replace ((2 * p + 1 + 1) / 2) with (p + 1).
    + destruct (seqfill (p + 1) (fun i => getu a (2 * i)) (fun i => nth (2 * i) lob 0%R) ((p + 1) * (p + 1) * (p + 1))) as (vs & E & Hv).
      * nia.
      * intros i Hi. apply H. lia.
      * cbv zeta. rewrite E. cbn [bind]. eexists. split; [reflexivity|exact Hv].
    + replace (2 * p + 1 + 1) with ((p + 1) * 2) by lia. rewrite Nat.div_mul by lia. reflexivity.
Qed.

Lemma seqgrid n (g : nat -> nat -> nat -> nat) :
  exists mp, loop n (fun k st => loop n (fun j st => loop n (fun i '(mp, q) =>
      do mp' <- set mp q (Some (g i j k)); Ok (mp', q + 1)) st) st) (repeat None (n * n * n), 0) = Ok (mp, n * n * n) /\
   length mp = n * n * n /\
   forall i j k, i < n -> j < n -> k < n -> nth (rid n i j k) mp None = Some (g i j k).
Proof.
  rewrite (loop3 n n n (fun k j i '(mp, q) => do mp' <- set mp q (Some (g i j k)); Ok (mp', q + 1))).
  edestruct (loop_inv (fun m '(mp, q) => q = m /\ length mp = n * n * n /\ forall q', q' < m ->
     nth q' mp None = Some (g (q' mod n) (q' / n mod n) (q' / n / n))) (n * n * n)) as ([mp q] & E & H1 & H2 & H3).
  3: { subst q. exists mp. split; [exact E|]. split; [exact H2|]. intros i j k Hi Hj Hk. rewrite H3 by (apply rid_lt; assumption).
       destruct (rid_dec n i j k Hi Hj) as (-> & -> & ->). reflexivity. }
  - cbv beta iota. rewrite repeat_length. split; [reflexivity|]. split; [reflexivity|intros; lia].
  - intros m [mp q] Hm (-> & L & H). rewrite set_ok by lia. cbn [bind]. eexists. split; [reflexivity|]. cbv beta iota.
    rewrite upd_length. split; [lia|]. split; [exact L|]. intros q' Hq'. rewrite nth_upd by lia.
    destruct (Nat.eqb_spec q' m) as [->|]; [reflexivity|]. apply H. lia.
Qed.

Lemma map_ok p : exists mp, hexn_vert_node_map p (nodes_1d p) (verts_1d p) = Ok mp /\
  length mp = verts_1d p * verts_1d p * verts_1d p /\
  forall i j k, i < verts_1d p -> j < verts_1d p -> k < verts_1d p ->
   getu mp (gid (verts_1d p) i j k) = Ok (gid (nodes_1d p) (vert_at p i) (vert_at p j) (vert_at p k)).
Proof.
  unfold hexn_vert_node_map, verts_1d, vert_at, nodes_1d. destruct (Nat.eqb_spec p 0) as [->|Hp].
  - destruct (seqgrid 2 (fun i j k => rid 2 i j k)) as (mp & E & L & H). cbv zeta. rewrite E. cbn [bind].
    exists mp. split; [reflexivity|]. split; [exact L|]. intros i j k Hi Hj Hk. apply getu_nth. apply H; assumption.
  - replace ((2 * p + 1 + 1) / 2) with (p + 1).
    + destruct (seqgrid (p + 1) (fun i j k => rid (2 * p + 1) (2 * i) (2 * j) (2 * k))) as (mp & E & L & H). cbv zeta.
      rewrite E. cbn [bind].
      exists mp. split; [reflexivity|]. split; [exact L|]. intros i j k Hi Hj Hk. apply getu_nth. apply H; assumption.
    + replace (2 * p + 1 + 1) with ((p + 1) * 2) by lia. rewrite Nat.div_mul by lia. reflexivity.
Qed.

Lemma setup_unfold p lob : setup_hexn p lob =
  (do nodes1 <- hexn_nodes_1d (nodes_1d p) lob;
   do nodes <- hexn_nodes_3d (nodes_1d p) nodes1;
   do verts1 <- hexn_verts_1d p (nodes_1d p) (verts_1d p) nodes1;
   do mp <- hexn_vert_node_map p (nodes_1d p) (verts_1d p);
   Ok {| hx_n1 := nodes_1d p; hx_nv := verts_1d p; hx_nodes1 := nodes1; hx_nodes := nodes; hx_verts1 := verts1; hx_map := mp |}).
Proof. reflexivity. Qed.

(** set-up succeeds and leaves these members *)
Lemma setup_ok p lob : length lob = nodes_1d p ->
  exists h, setup_hexn p lob = Ok h /\ hx_n1 h = nodes_1d p /\ hx_nv h = verts_1d p /\
   holds (verts_1d p) (hx_verts1 h) (vert_coord p lob) /\
   (forall i j k d, i < nodes_1d p -> j < nodes_1d p -> k < nodes_1d p -> d < 3 ->
      hexn_node_coords h (gid (nodes_1d p) i j k) d = Ok (nth (coord d i j k) lob 0%R)) /\
   (forall a b c, a < verts_1d p -> b < verts_1d p -> c < verts_1d p ->
      hexn_vert_node h (gid (verts_1d p) a b c) = Ok (gid (nodes_1d p) (vert_at p a) (vert_at p b) (vert_at p c))).
Proof.
  intros L. rewrite setup_unfold.
  destruct (nodes1_ok (nodes_1d p) lob L) as (n1 & E1 & H1). rewrite E1. cbn [bind].
  destruct (grid3 (nodes_1d p) (fun i => getu n1 i) (fun i => nth i lob 0%R) H1) as (n3 & E3 & H3).
  change (hexn_nodes_3d (nodes_1d p) n1 = Ok n3) in E3. rewrite E3. cbn [bind].
  destruct (verts1_ok p lob n1 L H1) as (vs & Ev & Hv). rewrite Ev. cbn [bind].
  destruct (map_ok p) as (mp & Em & _ & Hm). rewrite Em. cbn [bind].
  eexists. split; [reflexivity|]. cbn [hx_n1 hx_nv hx_verts1]. split; [reflexivity|]. split; [reflexivity|]. split; [exact Hv|].
  unfold hexn_node_coords, hexn_vert_node. cbn [hx_nodes hx_map]. split; [|exact Hm].
  intros i j k d Hi Hj Hk Hd. apply getu_nth. apply H3; assumption.
Qed.

(** a size unknown to lobatto_nodes_1D leaves the array unset and set-up reads it *)
Lemma setup_unset p : setup_hexn p [] = Err Uninit.
Proof.
  rewrite setup_unfold. unfold hexn_nodes_1d. change (length (@nil R)) with 0.
  unfold loop at 1. cbn [loop_from bind]. unfold hexn_nodes_3d.
  assert (H : 2 <= nodes_1d p) by (unfold nodes_1d; destruct (Nat.eqb_spec p 0); lia).
  destruct (nodes_1d p) as [|n] eqn:E; [lia|].
  rewrite (loop3 (S n) (S n) (S n) (fun k j i pos => let r := rid (S n) i j k in
    do x <- getu (repeat None (S n * S n * S n)) i; do y <- getu (repeat None (S n * S n * S n)) j; do z <- getu (repeat None (S n * S n * S n)) k;
    do p1 <- set pos (r * 3 + 0) (Some x);
    do p2 <- set p1 (r * 3 + 1) (Some y);
    set p2 (r * 3 + 2) (Some z))).
  destruct (S n * S n * S n) as [|q] eqn:Eq; [nia|].
  unfold loop. cbn [loop_from]. rewrite Nat.mod_0_l by lia. rewrite getu_none by lia. reflexivity.
Qed.

Lemma hexn_all p lob : length lob = nodes_1d p -> distinct (verts_1d p) (vert_coord p lob) ->
  exists h, setup_hexn p lob = Ok h /\ forall x y z ob oxi oeta omu,
   verts_1d p * verts_1d p * verts_1d p <= length ob -> verts_1d p * verts_1d p * verts_1d p <= length oxi ->
   verts_1d p * verts_1d p * verts_1d p <= length oeta -> verts_1d p * verts_1d p * verts_1d p <= length omu ->
   exists b bx be bm, hexn_basis h ob x y z = Ok b /\ hexn_partial_xi h oxi x y z = Ok bx /\
    hexn_partial_eta h oeta x y z = Ok be /\ hexn_partial_mu h omu x y z = Ok bm /\
    forall i j k, i < verts_1d p -> j < verts_1d p -> k < verts_1d p ->
      getu b (gid (verts_1d p) i j k) = Ok (phi3 (verts_1d p) (vert_coord p lob) i j k x y z) /\
      exists gx gy gz, getu bx (gid (verts_1d p) i j k) = Ok gx /\ getu be (gid (verts_1d p) i j k) = Ok gy /\
        getu bm (gid (verts_1d p) i j k) = Ok gz /\ is_grad (phi3 (verts_1d p) (vert_coord p lob) i j k) x y z (gx, gy, gz).
Proof.
  intros L D. destruct (setup_ok p lob L) as (h & E & _ & Hn & Hv & _). exists h. split; [exact E|].
  intros x y z ob oxi oeta omu L1 L2 L3 L4. rewrite <- Hn in *.
  destruct (hexn_basis_ok h _ ob x y z D Hv L1) as (b & E1 & _ & F1 & _).
  destruct (hexn_xi_ok h _ oxi x y z D Hv L2) as (bx & E2 & _ & F2 & _).
  destruct (hexn_eta_ok h _ oeta x y z D Hv L3) as (be & E3 & _ & F3 & _).
  destruct (hexn_mu_ok h _ omu x y z D Hv L4) as (bm & E4 & _ & F4 & _).
  exists b, bx, be, bm. repeat (split; [assumption|]). intros i j k Hi Hj Hk.
  split; [apply F1; assumption|]. do 3 eexists. split; [apply F2; assumption|]. split; [apply F3; assumption|].
  split; [apply F4; assumption|]. unfold is_grad, phi3. set (n := hx_nv h). set (Z := vert_coord p lob). repeat split.
  - apply (der_ext (fun t => ell n Z i t * (ell n Z j y * ell n Z k z))%R); [intros; ring|].
    rewrite Rmult_assoc. apply der_scal_r. apply ell_der.
  - apply (der_ext (fun t => ell n Z i x * ell n Z k z * ell n Z j t)%R); [intros; ring|].
    replace (ell n Z i x * dell n Z j y * ell n Z k z)%R with (ell n Z i x * ell n Z k z * dell n Z j y)%R by ring.
    apply der_scal. apply ell_der.
  - apply der_scal. apply ell_der.
Qed.

Lemma verts_pos p : 2 <= verts_1d p.
Proof. unfold verts_1d. destruct (Nat.eqb_spec p 0); lia. Qed.
Lemma vert_at_lt p a : a < verts_1d p -> vert_at p a < nodes_1d p.
Proof. unfold verts_1d, vert_at, nodes_1d. destruct (Nat.eqb_spec p 0); lia. Qed.

(** nodal property through the element's own vertex map and node coordinates *)
Lemma hexn_nodal p lob : length lob = nodes_1d p -> distinct (verts_1d p) (vert_coord p lob) ->
  exists h, setup_hexn p lob = Ok h /\
   (forall w, w < verts_1d p * verts_1d p * verts_1d p ->
     exists r x y z b, hexn_vert_node h w = Ok r /\ hexn_node_coords h r 0 = Ok x /\ hexn_node_coords h r 1 = Ok y /\ hexn_node_coords h r 2 = Ok z /\
      hexn_basis h (repeat None (verts_1d p * verts_1d p * verts_1d p)) x y z = Ok b /\
      forall v, v < verts_1d p * verts_1d p * verts_1d p -> getu b v = Ok (if v =? w then 1%R else 0%R)) /\
   (forall x y z, exists b val, hexn_basis h (repeat None (verts_1d p * verts_1d p * verts_1d p)) x y z = Ok b /\
      (forall v, v < verts_1d p * verts_1d p * verts_1d p -> getu b v = Ok (val v)) /\
      rsum (verts_1d p * verts_1d p * verts_1d p) val = 1%R).
Proof.
  intros L D. destruct (setup_ok p lob L) as (h & E & _ & Hn & Hv & Hc & Hm). exists h. split; [exact E|].
  set (n := verts_1d p) in *. set (Z := vert_coord p lob) in *.
  assert (B : forall x y z, exists b, hexn_basis h (repeat None (n * n * n)) x y z = Ok b /\
     forall i j k, i < n -> j < n -> k < n -> getu b (rid n i j k) = Ok (phi3 n Z i j k x y z)).
  { intros x y z. rewrite <- Hn in *. destruct (hexn_basis_ok h Z (repeat None (hx_nv h * hx_nv h * hx_nv h)) x y z D Hv) as (b & E1 & _ & F1 & _).
    - rewrite repeat_length. reflexivity.
    - exists b. split; [exact E1|]. intros. apply F1; assumption. }
  split.
  - intros w Hw. destruct (pos3 n w Hw) as (P1 & P2 & P3 & P4).
    set (a := w mod n) in *. set (b := w / n mod n) in *. set (c := w / n / n) in *.
    destruct (B (Z a) (Z b) (Z c)) as (bb & Eb & Fb).
    exists (gid (nodes_1d p) (vert_at p a) (vert_at p b) (vert_at p c)), (Z a), (Z b), (Z c), bb.
    rewrite P4. split; [apply Hm; assumption|].
    split; [rewrite Hc by (try apply vert_at_lt; try assumption; lia); reflexivity|].
    split; [rewrite Hc by (try apply vert_at_lt; try assumption; lia); reflexivity|].
    split; [rewrite Hc by (try apply vert_at_lt; try assumption; lia); reflexivity|].
    split; [exact Eb|]. intros v Hv'. destruct (pos3 n v Hv') as (Q1 & Q2 & Q3 & Q4).
    rewrite Q4 at 1. rewrite Fb by assumption. f_equal. rewrite phi3_nodal by assumption.
    destruct (Nat.eqb_spec v (rid n a b c)) as [e|e].
    + subst v. destruct (rid_dec n a b c P3 P2) as (-> & -> & ->). rewrite !Nat.eqb_refl. reflexivity.
    + destruct (Nat.eqb_spec a (v mod n)); [|reflexivity]. destruct (Nat.eqb_spec b (v / n mod n)); [|reflexivity].
      destruct (Nat.eqb_spec c (v / n / n)); [|reflexivity]. exfalso. apply e. rewrite Q4. congruence.
  - intros x y z. destruct (B x y z) as (b & Eb & Fb).
    exists b, (fun v => ell n Z (v mod n) x * ell n Z ((v / n) mod n) y * ell n Z (v / n / n) z)%R. split; [exact Eb|]. split.
    + intros v Hv'. destruct (pos3 n v Hv') as (Q1 & Q2 & Q3 & Q4). rewrite Q4 at 1. rewrite Fb by assumption. reflexivity.
    + rewrite (rsum_grid n (fun i => ell n Z i x) (fun i => ell n Z i y) (fun i => ell n Z i z)).
      assert (2 <= n) by apply verts_pos. rewrite !ell_sum by (assumption || lia). ring.
Qed.
