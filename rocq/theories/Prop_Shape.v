(** Properties C44, C45, C46: shape functions and tables of the fixed-order elements. *)
From Coq Require Import List Reals Arith Lia Lra.
Import ListNotations.
Require Import Verif.Base Verif.RSum Verif.RDer Verif.Model_Shape Verif.Spec_Shape Verif.Proof_Shape Verif.Proof_Shape2 Verif.Proof_Shape3
  Verif.Proof_Shape4 Verif.Proof_Shape5 Verif.Proof_Shape6.
Local Open Scope nat_scope.

Lemma shape_is_basis E : basis_functions E (shapeN E).
Proof. intros x out L. destruct (basis_pure E x out L) as (o & H & W). exists o. split; [exact H|exact W]. Qed.
Lemma basis_unique E N v x : basis_functions E N -> v < e_nv E -> N v x = shapeN E v x.
Proof.
  intros H Hv. assert (L : e_nv E <= length (repeat (@None R) (e_nv E))) by (rewrite repeat_length; lia).
  destruct (H x _ L) as (o & E1 & _ & W1 & _). destruct (shape_is_basis E x _ L) as (o' & E2 & _ & W2 & _).
  rewrite E1 in E2. injection E2 as <-. specialize (W1 v Hv). specialize (W2 v Hv). rewrite W1 in W2. injection W2 as ->. reflexivity.
Qed.

(** ** C44: the basis routine evaluates a nodal basis that sums to one and reproduces the coordinates *)
Theorem C44_basis : forall E, exists N, basis_functions E N /\
  (forall x, rsum (e_nv E) (fun v => N v x) = 1%R) /\
  (forall x d, d < e_dim E -> rsum (e_nv E) (fun v => N v x * refc E v d)%R = x d) /\
  (forall v w, v < e_nv E -> w < e_nv E -> N v (refc E w) = if v =? w then 1%R else 0%R).
Proof.
  intros E. exists (shapeN E). split; [apply shape_is_basis|]. split; [apply shape_unity|]. split; [intros; apply shape_linear; assumption|apply shape_nodal].
Qed.
Print Assumptions C44_basis.

(** physical_position: the vertex combination, whatever the output held *)
Theorem C44_position : forall E N x vertices xp, E <> Hex32 -> basis_functions E N ->
  e_nv E * e_dim E <= length vertices -> e_dim E <= length xp ->
  exists xp', e_position E xp (pt (e_dim E) x) vertices = Ok xp' /\
    writes (e_dim E) xp xp' (fun d => rsum (e_nv E) (fun v => nth (v * e_dim E + d) vertices 0 * N v x)%R).
Proof.
  intros E N x vertices xp HE HN Lv Lx.
  assert (L : e_nv E <= length (repeat (@None R) (e_nv E))) by (rewrite repeat_length; lia).
  destruct (posb_pure E x _ L) as (b & Eb & _ & Wb & _).
  assert (Hb : forall w, w < e_nv E -> getu b w = Ok (N w x)).
  { intros w Hw. rewrite Wb by exact Hw. rewrite posb_same by exact Hw. rewrite (basis_unique E N w x HN Hw). reflexivity. }
  destruct E; try congruence; unfold e_position, quad4_physical_position, quad8_physical_position, quad12_physical_position,
    hex8_physical_position, hex20_physical_position, tess16_physical_position; cbn [e_posb e_dim e_nv] in *; rewrite Eb; cbn [bind].
  all: first [exact (vd_ok _ vertices b (fun w => N w x) _ xp Lx Lv Hb) | exact (dv_ok _ vertices b (fun w => N w x) _ xp Lx Lv Hb)].
Qed.
Print Assumptions C44_position.

(** an element whose vertices are the affine image A ref + c of the reference vertices is mapped by A x + c *)
Theorem C44_affine : forall E (A : nat -> nat -> R) (c : vec) x vertices xp, E <> Hex32 ->
  e_nv E * e_dim E <= length vertices -> e_dim E <= length xp ->
  (forall v d, v < e_nv E -> d < e_dim E -> nth (v * e_dim E + d) vertices 0%R = (rsum (e_dim E) (fun e => A d e * refc E v e) + c d)%R) ->
  exists xp', e_position E xp (pt (e_dim E) x) vertices = Ok xp' /\
    writes (e_dim E) xp xp' (fun d => rsum (e_dim E) (fun e => A d e * x e) + c d)%R.
Proof.
  intros E A c x vertices xp HE Lv Lx HA.
  destruct (C44_position E (shapeN E) x vertices xp HE (shape_is_basis E) Lv Lx) as (xp' & E1 & W1 & W2 & W3).
  exists xp'. split; [exact E1|]. split; [exact W1|]. split; [|exact W3]. intros d Hd. rewrite W2 by exact Hd. f_equal.
  rewrite (rsum_ext _ _ (fun v => rsum (e_dim E) (fun e => A d e * (shapeN E v x * refc E v e)) + c d * shapeN E v x)%R).
  - rewrite rsum_plus. f_equal.
    + rewrite rsum_swap. apply rsum_ext. intros e He. rewrite rsum_scal_l. rewrite shape_linear by exact He. reflexivity.
    + rewrite rsum_scal_l, shape_unity. apply Rmult_1_r.
  - intros v Hv. rewrite HA by assumption. rewrite Rmult_plus_distr_r. f_equal. rewrite <- rsum_scal_r. apply rsum_ext. intros e _. ring.
Qed.
Print Assumptions C44_affine.

(** Hex32::physical_position always reads one entry past its 32 basis values *)
Theorem C44_hex32_position_oob : forall x vertices xp, 96 <= length vertices -> 3 <= length xp ->
  e_position Hex32 xp (pt 3 x) vertices = Err OOB.
Proof.
  intros x vertices xp Lv Lx.
  assert (L : 32 <= length (repeat (@None R) 32)) by (rewrite repeat_length; lia).
  destruct (posb_pure Hex32 x _ L) as (b & Eb & Lb & Wb & _). cbn [e_posb e_dim e_nv] in *.
  unfold e_position, hex32_physical_position. rewrite Eb. cbn [bind]. rewrite repeat_length in Lb.
  refine (vd_over 3 32 vertices b _ xp _ Lx _ Wb Lb); lia.
Qed.
Print Assumptions C44_hex32_position_oob.
Example C44_nonvacuous : exists xp', e_position Quad4 [Some 7; None]%R (pt 2 (fun _ => 1/2)%R) [0;0; 2;0; 2;4; 0;4]%R = Ok xp' /\ getu xp' 0 = Ok (3/2)%R /\ getu xp' 1 = Ok 3%R.
Proof.
  destruct (C44_affine Quad4 (fun d e => if d =? e then (if d =? 0 then 1 else 2) else 0)%R (fun d => if d =? 0 then 1 else 2)%R (fun _ => 1/2)%R [0;0; 2;0; 2;4; 0;4]%R [Some 7; None]%R) as (xp' & E & _ & W & _).
  - discriminate.
  - cbn. lia.
  - cbn. lia.
  - intros v d Hv Hd. cbn in Hv, Hd. do 4 (destruct v as [|v]; [destruct d as [|[|d]]; [| |exfalso; lia]; cbv -[Rplus Rmult Rminus Rdiv Ropp Rinv IZR]; lra|]). exfalso; lia.
  - exists xp'. split; [exact E|]. cbn [e_dim] in W. rewrite !W by lia. split; f_equal; cbn; lra.
Qed.

(** ** C45: the partial routines give the partial derivatives, except in direction xi for Hex20 and Hex32 *)
Theorem C45_partials : forall E N d x out, basis_functions E N -> d < e_dim E -> (d = 0 -> E <> Hex20 /\ E <> Hex32) -> e_nv E <= length out ->
  exists out' D, e_partial E d (pt (e_dim E) x) out = Ok out' /\ writes (e_nv E) out out' D /\
    forall v, v < e_nv E -> is_partial (N v) d x (D v).
Proof.
  intros E N d x out HN Hd HE L. destruct (partial_pure E d x Hd out L) as (o & E1 & W). exists o. eexists. split; [exact E1|]. split; [exact W|].
  intros v Hv. assert (G : der_good E d v = true).
  { destruct E; try reflexivity; destruct d; try reflexivity; destruct (HE eq_refl); congruence. }
  assert (P := shape_der E d v x Hd Hv G). unfold is_partial in *. eapply der_ext; [|exact P].
  intros t. symmetry. apply basis_unique; assumption.
Qed.
Print Assumptions C45_partials.
(** Hex20, Hex32, direction xi: exactly the listed entries are not the derivative *)
Definition wrong_xi (E : elem) : list nat :=
  match E with Hex20 => [9; 11; 13; 15; 16; 17; 18; 19] | Hex32 => seq 8 8 ++ seq 24 8 | _ => [] end.
Theorem C45_xi_partials_of_hex20_and_hex32 : forall E N, E = Hex20 \/ E = Hex32 -> basis_functions E N ->
  exists D, (forall x out, e_nv E <= length out -> exists out', e_partial E 0 (pt (e_dim E) x) out = Ok out' /\ writes (e_nv E) out out' (fun v => D v x)) /\
    (forall v, v < e_nv E -> ((forall x, is_partial (N v) 0 x (D v x)) <-> ~ In v (wrong_xi E))) /\
    (forall v, In v (wrong_xi E) -> ~ is_partial (N v) 0 (fun d => match d with 0 => 1/2 | 1 => 1/3 | 2 => 1/5 | _ => 0 end)%R
         (D v (fun d => match d with 0 => 1/2 | 1 => 1/3 | 2 => 1/5 | _ => 0 end)%R)).
Proof.
  intros E N HE HN. assert (Hd : 0 < e_dim E) by (destruct HE as [-> | ->]; cbn; lia).
  exists (shapeD E 0). split.
  { intros x out L. destruct (partial_pure E 0 x Hd out L) as (o & E1 & W). exists o. split; [exact E1|exact W]. }
  assert (G : forall v, v < e_nv E -> (In v (wrong_xi E) <-> der_good E 0 v = false)).
  { intros v Hv. destruct HE as [-> | ->]; cbn [e_nv] in Hv.
    - do 20 (destruct v as [|v]; [cbn; split; [intros K; first [reflexivity|exfalso; repeat (destruct K as [K|K]; [discriminate K|]); exact K]|intros K; first [discriminate K|tauto]]|]). exfalso; lia.
    - do 32 (destruct v as [|v]; [cbn; split; [intros K; first [reflexivity|exfalso; repeat (destruct K as [K|K]; [discriminate K|]); exact K]|intros K; first [discriminate K|tauto]]|]). exfalso; lia. }
  assert (B : forall v, v < e_nv E -> In v (wrong_xi E) -> ~ is_partial (N v) 0 wit (shapeD E 0 v wit)).
  { intros v Hv Hin P. apply (G v Hv) in Hin. assert (P' : is_partial (shapeN E v) 0 wit (shapeD E 0 v wit)).
    { unfold is_partial in *. eapply der_ext; [|exact P]. intros t. apply basis_unique; assumption. }
    destruct HE as [-> | ->]; [exact (bad_hex20 v Hv Hin P')|exact (bad_hex32 v Hv Hin P')]. }
  split.
  - intros v Hv. split.
    + intros P Hin. exact (B v Hv Hin (P wit)).
    + intros Hn x. assert (Gd : der_good E 0 v = true). { destruct (der_good E 0 v) eqn:Q; [reflexivity|]. exfalso. apply Hn. apply (G v Hv). exact Q. }
      assert (P := shape_der E 0 v x Hd Hv Gd). unfold is_partial in *. eapply der_ext; [|exact P]. intros t. symmetry. apply basis_unique; assumption.
  - intros v Hin. apply B; [|exact Hin]. destruct HE as [-> | ->]; cbn in Hin |- *; repeat (destruct Hin as [<-|Hin]; [lia|]); destruct Hin.
Qed.
Print Assumptions C45_xi_partials_of_hex20_and_hex32.
Example C45_nonvacuous : basis_functions Hex20 (shapeN Hex20) /\ e_nv Hex20 <= length (repeat (@None R) 20).
Proof. split; [apply shape_is_basis|]. cbn. lia. Qed.

(** ** C46: vert_node_map gives the grid node at the vertex, except for the listed entries *)
Theorem C46_vertex_maps : forall E v, E <> Tess16 -> v < e_nv E ->
  exists g, e_vert_node_map E v = Ok g /\ g < grid_side E ^ e_dim E /\
    ((forall d, d < e_dim E -> node_coord (grid_side E) g d = refc E v d) <-> ~ In v (wrong_map E)).
Proof.
  intros E v HE. destruct E; try congruence; revert v.
  - exact vm_quad4.
  - exact vm_quad8.
  - exact vm_quad12.
  - exact vm_hex8.
  - exact vm_hex20.
  - exact vm_hex32.
Qed.
Print Assumptions C46_vertex_maps.
(** surface_to_dof_lid lists exactly the dofs on each face, each once *)
Theorem C46_surfaces : forall E, E <> Tess16 -> exists t, e_surface E = Ok t /\
  forall s, s < 2 * e_dim E -> (s = 2 -> E <> Hex20 /\ E <> Hex32) ->
    (forall v, (exists i, i < face_size E /\ getu t (s * face_size E + i) = Ok v) <-> (v < e_nv E /\ refc E v (face_dir E s) = face_pos s)) /\
    (forall i j v, i < face_size E -> j < face_size E -> getu t (s * face_size E + i) = Ok v -> getu t (s * face_size E + j) = Ok v -> i = j).
Proof.
  intros E HE. destruct E; try congruence; cbn [e_surface].
  - destruct sf_quad4 as (t & Q & H). exists t. split; [exact Q|]. intros s Hs _. apply H. exact Hs.
  - destruct sf_quad8 as (t & Q & H). exists t. split; [exact Q|]. intros s Hs _. apply H. exact Hs.
  - destruct sf_quad12 as (t & Q & H). exists t. split; [exact Q|]. intros s Hs _. apply H. exact Hs.
  - destruct sf_hex8 as (t & Q & H). exists t. split; [exact Q|]. intros s Hs _. apply H. exact Hs.
  - destruct sf_hex20 as (t & Q & H & _). exists t. split; [exact Q|]. intros s Hs Hn. apply H; [exact Hs|]. intros ->. destruct (Hn eq_refl). congruence.
  - destruct sf_hex32 as (t & Q & H & _). exists t. split; [exact Q|]. intros s Hs Hn. apply H; [exact Hs|]. intros ->. destruct (Hn eq_refl). congruence.
Qed.
Print Assumptions C46_surfaces.
(** surface 2: never written for Hex20; for Hex32 vertex 25 twice and vertex 5 missing *)
Theorem C46_surface_errors :
  (exists t, e_surface Hex20 = Ok t /\ forall i, i < 8 -> getu t (2 * 8 + i) = Err Uninit) /\
  (exists t, e_surface Hex32 = Ok t /\
     (forall v, (exists i, i < 12 /\ getu t (2 * 12 + i) = Ok v) <-> v <> 5 /\ v < 32 /\ refc Hex32 v (face_dir Hex32 2) = face_pos 2) /\
     getu t (2 * 12 + 5) = Ok 25 /\ getu t (2 * 12 + 11) = Ok 25 /\ refc Hex32 5 (face_dir Hex32 2) = face_pos 2).
Proof.
  split.
  - destruct sf_hex20 as (t & Q & _ & H). exists t. auto.
  - destruct sf_hex32 as (t & Q & _ & H & H1 & H2). exists t. split; [exact Q|]. split; [exact H|]. split; [exact H1|]. split; [exact H2|]. cbn. lra.
Qed.
Print Assumptions C46_surface_errors.
