(** Model of the fixed-order elements Quad4, Quad8, Quad12, Hex8, Hex20, Hex32, Tess16 of
    elements/elements.cpp: reference vertex tables, basis, partial_*_basis, physical_position,
    vert_to_node and surface_to_dof_lid.  The formulas below were transcribed mechanically from the C++ text.
    Simplifications: doubles are exact reals; the body of a vertex loop first loads all coordinates of its
    reference vertex and of the point (the C++ reads the ones it uses). *)
From Coq Require Import List Reals Arith.
Import ListNotations.
Require Import Verif.Base.
Local Open Scope nat_scope.

Definition vec := nat -> R.
(** ref_verts(v, 0..dim-1): a row of a flat table *)
Definition row (dim : nat) (tab : list R) (v : nat) : res vec :=
  loop dim (fun d acc => do c <- get tab (v * dim + d); Ok (fun e => if e =? d then c else acc e)) (fun _ => 0%R).

(** one loop [for (v = start; ..; v += step) out(v) = f(ref_verts(v,.), xi_point)] of cnt passes; the shape
    shared by all loops at the lines cited below *)
Definition sloop (dim : nat) (tab : list R) (xi : list R) (start step cnt : nat) (f : vec -> vec -> R)
  (out : list (option R)) : res (list (option R)) :=
  do x <- row dim xi 0;
  loop cnt (fun t o => let v := start + step * t in
    do r <- row dim tab v; set o v (Some (f r x))) out.

(** the accumulation [x_point(dim) += vertices(v,dim)*basis(v)] at the end of physical_position *)
Definition acc1 (dim : nat) (vertices : list R) (b : list (option R)) (v d : nat) (xp : list (option R)) : res (list (option R)) :=
  do c <- get vertices (v * dim + d); do s <- getu b v; do old <- getu xp d;
  set xp d (Some (old + c * s)%R).
(** vertex loop outside, dimension loop inside (all elements but Hex20) *)
Definition accumulate_vd (dim nv : nat) (vertices : list R) (b xp : list (option R)) : res (list (option R)) :=
  do xp <- loop dim (fun d a => set a d (Some 0%R)) xp;
  loop nv (fun v a => loop dim (fun d a => acc1 dim vertices b v d a) a) xp.
(** elements/elements.cpp:4636-4643 dimension loop outside (Hex20) *)
Definition accumulate_dv (dim nv : nat) (vertices : list R) (b xp : list (option R)) : res (list (option R)) :=
  do xp <- loop dim (fun d a => set a d (Some 0%R)) xp;
  loop dim (fun d a => loop nv (fun v a => acc1 dim vertices b v d a) a) xp.

(** a constructor's writes into a ragged array of equal strides, allocated and not initialised *)
Definition surface_table (ns size : nat) (writes : list (nat * nat * nat)) : res (list (option nat)) :=
  iter writes (fun w t => let '(s, i, v) := w in
    if ((s <? ns) && (i <? size))%bool then set t (s * size + i) (Some v) else Err OOB) (repeat None (ns * size)).

(** elements/elements.cpp:3296-3303 Quad4::ref_vert *)
Definition quad4_ref : list R := ([
  -1; -1;
  1; -1;
  1; 1;
  -1; 1])%R.

(** elements/elements.cpp:3329-3355 Quad4::physical_position: the local basis array *)
Definition quad4_pos_basis (xi : list R) (out : list (option R)) : res (list (option R)) :=
  sloop 2 quad4_ref xi 0 1 4 (fun r x => 1/4 * (1 + x 0%nat*r 0%nat) * (1 + x 1%nat*r 1%nat))%R out.

(** elements/elements.cpp:3329-3355 Quad4::physical_position *)
Definition quad4_physical_position (xp : list (option R)) (xi vertices : list R) : res (list (option R)) :=
  do b <- quad4_pos_basis xi (repeat None 4);
  accumulate_vd 2 4 vertices b xp.

(** elements/elements.cpp:3359-3374 Quad4::basis *)
Definition quad4_basis (xi : list R) (out : list (option R)) : res (list (option R)) :=
  sloop 2 quad4_ref xi 0 1 4 (fun r x => (1/4) * (1 + x 0%nat*r 0%nat) * (1 + x 1%nat*r 1%nat))%R out.

(** elements/elements.cpp:3378-3390 Quad4::partial_xi_basis *)
Definition quad4_partial_xi_basis (xi : list R) (out : list (option R)) : res (list (option R)) :=
  sloop 2 quad4_ref xi 0 1 4 (fun r x => (1/4) * (r 0%nat) * (1 + x 1%nat*r 1%nat))%R out.

(** elements/elements.cpp:3394-3406 Quad4::partial_eta_basis *)
Definition quad4_partial_eta_basis (xi : list R) (out : list (option R)) : res (list (option R)) :=
  sloop 2 quad4_ref xi 0 1 4 (fun r x => (1/4) * (1 + x 0%nat*r 0%nat) * (r 1%nat))%R out.

(** elements/elements.cpp:3305-3311 Quad4::vert_to_node *)
Definition quad4_vert_to_node : list nat := [0; 2; 6; 8].

(** elements/elements.cpp:3408 Quad4::vert_node_map *)
Definition quad4_vert_node_map (v : nat) : res nat := get quad4_vert_to_node v.

(** elements/elements.cpp:3271-3290 Quad4::Quad4: the assignments surface_to_dof_lid(s,i) = v in order, on 4 rows of 2 *)
Definition quad4_surface : res (list (option nat)) :=
  surface_table 4 2 [(0,0,0); (0,1,1); (1,0,3); (1,1,2); (2,0,0); (2,1,3); (3,0,1); (3,1,2)].

(** elements/elements.cpp:3471-3482 Quad8::ref_vert *)
Definition quad8_ref : list R := ([
  -1; -1;
  1; -1;
  1; 1;
  -1; 1;
  0; -1;
  1; 0;
  0; 1;
  -1; 0])%R.

(** elements/elements.cpp:3510-3552 Quad8::physical_position: the local basis array *)
Definition quad8_pos_basis (xi : list R) (out : list (option R)) : res (list (option R)) :=
  do out <- sloop 2 quad8_ref xi 0 1 4 (fun r x => (1/4) * (1 + x 0%nat*r 0%nat) * (1 + x 1%nat*r 1%nat) * (x 0%nat*r 0%nat + x 1%nat*r 1%nat - 1))%R out;
  do out <- sloop 2 quad8_ref xi 4 2 2 (fun r x => (1/2) * (1 - x 0%nat*x 0%nat) * (1 + x 1%nat*r 1%nat))%R out;
  sloop 2 quad8_ref xi 5 2 2 (fun r x => (1/2) * (1 + x 0%nat*r 0%nat) * (1 - x 1%nat*x 1%nat))%R out.

(** elements/elements.cpp:3510-3552 Quad8::physical_position *)
Definition quad8_physical_position (xp : list (option R)) (xi vertices : list R) : res (list (option R)) :=
  do b <- quad8_pos_basis xi (repeat None 8);
  accumulate_vd 2 8 vertices b xp.

(** elements/elements.cpp:3556-3587 Quad8::basis *)
Definition quad8_basis (xi : list R) (out : list (option R)) : res (list (option R)) :=
  do out <- sloop 2 quad8_ref xi 0 1 4 (fun r x => (1/4) * (1 + x 0%nat*r 0%nat) * (1 + x 1%nat*r 1%nat) * (x 0%nat*r 0%nat + x 1%nat*r 1%nat - 1))%R out;
  do out <- sloop 2 quad8_ref xi 4 2 2 (fun r x => (1/2) * (1 - x 0%nat*x 0%nat) * (1 + x 1%nat*r 1%nat))%R out;
  sloop 2 quad8_ref xi 5 2 2 (fun r x => (1/2) * (1 + x 0%nat*r 0%nat) * (1 - x 1%nat*x 1%nat))%R out.

(** elements/elements.cpp:3591-3622 Quad8::partial_xi_basis *)
Definition quad8_partial_xi_basis (xi : list R) (out : list (option R)) : res (list (option R)) :=
  do out <- sloop 2 quad8_ref xi 0 1 4 (fun r x => 1/4 * (r 0%nat) * (1 + r 1%nat*x 1%nat) *((2 * r 0%nat*x 0%nat) + (r 1%nat*x 1%nat)))%R out;
  do out <- sloop 2 quad8_ref xi 4 2 2 (fun r x => -1 * (x 0%nat) * (1 + r 1%nat*x 1%nat))%R out;
  sloop 2 quad8_ref xi 5 2 2 (fun r x => 1/2 * (r 0%nat) * (1 - x 1%nat*x 1%nat))%R out.

(** elements/elements.cpp:3626-3655 Quad8::partial_eta_basis *)
Definition quad8_partial_eta_basis (xi : list R) (out : list (option R)) : res (list (option R)) :=
  do out <- sloop 2 quad8_ref xi 0 1 4 (fun r x => (1/4) * (1 + r 0%nat*x 0%nat) * (r 1%nat) *((r 0%nat*x 0%nat) + (2 * r 1%nat*x 1%nat)))%R out;
  do out <- sloop 2 quad8_ref xi 4 2 2 (fun r x => (1/2) * (1 - x 0%nat*x 0%nat) * (r 1%nat))%R out;
  sloop 2 quad8_ref xi 5 2 2 (fun r x => (-1) * (1 + r 0%nat*x 0%nat) * (x 1%nat))%R out.

(** elements/elements.cpp:3484-3494 Quad8::vert_to_node *)
Definition quad8_vert_to_node : list nat := [0; 4; 24; 20; 2; 14; 23; 10].

(** elements/elements.cpp:3657 Quad8::vert_node_map *)
Definition quad8_vert_node_map (v : nat) : res nat := get quad8_vert_to_node v.

(** elements/elements.cpp:3441-3465 Quad8::Quad8: the assignments surface_to_dof_lid(s,i) = v in order, on 4 rows of 3 *)
Definition quad8_surface : res (list (option nat)) :=
  surface_table 4 3 [(0,0,0); (0,1,4); (0,2,1); (1,0,3); (1,1,6); (1,2,2); (2,0,0); (2,1,7); (2,2,3); (3,0,1); (3,1,5); (3,2,2)].

(** elements/elements.cpp:3722-3739 Quad12::ref_vert *)
Definition quad12_ref : list R := ([
  -1; -1;
  1; -1;
  1; 1;
  -1; 1;
  - (1/3); -1;
  1/3; -1;
  1/3; 1;
  - (1/3); 1;
  -1; - (1/3);
  1; - (1/3);
  1; 1/3;
  -1; 1/3])%R.

(** elements/elements.cpp:3774-3822 Quad12::physical_position: the local basis array *)
Definition quad12_pos_basis (xi : list R) (out : list (option R)) : res (list (option R)) :=
  do out <- sloop 2 quad12_ref xi 0 1 4 (fun r x => 1/32 * (1 + r 0%nat * x 0%nat) * (1 + r 1%nat * x 1%nat) * (9 * (x 0%nat * x 0%nat + x 1%nat * x 1%nat) - (10)))%R out;
  do out <- sloop 2 quad12_ref xi 4 1 4 (fun r x => 9/32 * (1 - x 0%nat * x 0%nat) * (1 + x 1%nat * r 1%nat) * (1 + 9 * x 0%nat * r 0%nat))%R out;
  sloop 2 quad12_ref xi 8 1 4 (fun r x => 9/32 * (1 + x 0%nat * r 0%nat) * (1 - x 1%nat * x 1%nat) * (1 + 9 * x 1%nat * r 1%nat))%R out.

(** elements/elements.cpp:3774-3822 Quad12::physical_position *)
Definition quad12_physical_position (xp : list (option R)) (xi vertices : list R) : res (list (option R)) :=
  do b <- quad12_pos_basis xi (repeat None 12);
  accumulate_vd 2 12 vertices b xp.

(** elements/elements.cpp:3826-3858 Quad12::basis *)
Definition quad12_basis (xi : list R) (out : list (option R)) : res (list (option R)) :=
  do out <- sloop 2 quad12_ref xi 0 1 4 (fun r x => 1/32 * (1 + r 0%nat * x 0%nat) * (1 + r 1%nat * x 1%nat) * (9 * (x 0%nat * x 0%nat + x 1%nat * x 1%nat) - (10)))%R out;
  do out <- sloop 2 quad12_ref xi 4 1 4 (fun r x => 9/32 * (1 - x 0%nat * x 0%nat) * (1 + x 1%nat * r 1%nat) * (1 + 9 * x 0%nat * r 0%nat))%R out;
  sloop 2 quad12_ref xi 8 1 4 (fun r x => 9/32 * (1 + x 0%nat * r 0%nat) * (1 - x 1%nat * x 1%nat) * (1 + 9 * x 1%nat * r 1%nat))%R out.

(** elements/elements.cpp:3862-3895 Quad12::partial_xi_basis *)
Definition quad12_partial_xi_basis (xi : list R) (out : list (option R)) : res (list (option R)) :=
  do out <- sloop 2 quad12_ref xi 0 1 4 (fun r x => 1/32 * (1 + x 1%nat * r 1%nat) *((9 * r 0%nat * (x 0%nat * x 0%nat + x 1%nat * x 1%nat)) + (18 * x 0%nat * (1 + x 0%nat * r 0%nat)) - (10 * r 0%nat)))%R out;
  do out <- sloop 2 quad12_ref xi 4 1 4 (fun r x => (9/32) * (1 + x 1%nat * r 1%nat) *((9 * r 0%nat * (1 - 3 * x 0%nat*x 0%nat)) - (2 * x 0%nat)))%R out;
  sloop 2 quad12_ref xi 8 1 4 (fun r x => 9/32 * (r 0%nat) * (1 - x 1%nat * x 1%nat) * (1 + 9 * x 1%nat * r 1%nat))%R out.

(** elements/elements.cpp:3899-3931 Quad12::partial_eta_basis *)
Definition quad12_partial_eta_basis (xi : list R) (out : list (option R)) : res (list (option R)) :=
  do out <- sloop 2 quad12_ref xi 0 1 4 (fun r x => 1/32 * (1 + x 0%nat * r 0%nat) *((9 * r 1%nat * (x 0%nat * x 0%nat + x 1%nat * x 1%nat)) + (18 * x 1%nat * (1 + x 1%nat * r 1%nat)) - (10 * r 1%nat)))%R out;
  do out <- sloop 2 quad12_ref xi 4 1 4 (fun r x => 9/32 * (1 - x 0%nat * x 0%nat) * (1 + 9 * x 0%nat * r 0%nat) * (r 1%nat))%R out;
  sloop 2 quad12_ref xi 8 1 4 (fun r x => 9/32 * (1 + x 0%nat * r 0%nat) *((9 * r 1%nat * (1 - 3 * x 1%nat*x 1%nat)) - (2 * x 1%nat)))%R out.

(** elements/elements.cpp:3741-3755 Quad12::vert_to_node *)
Definition quad12_vert_to_node : list nat := [0; 6; 48; 42; 2; 4; 46; 44; 14; 20; 34; 28].

(** elements/elements.cpp:3933 Quad12::vert_node_map *)
Definition quad12_vert_node_map (v : nat) : res nat := get quad12_vert_to_node v.

(** elements/elements.cpp:3689-3716 Quad12::Quad12: the assignments surface_to_dof_lid(s,i) = v in order, on 4 rows of 4 *)
Definition quad12_surface : res (list (option nat)) :=
  surface_table 4 4 [(0,0,0); (0,1,4); (0,2,5); (0,3,1); (1,0,3); (1,1,7); (1,2,6); (1,3,2); (2,0,0); (2,1,8); (2,2,11); (2,3,3); (3,0,1); (3,1,9); (3,2,10); (3,3,2)].

(** elements/elements.cpp:4262-4274 Hex8::ref_vert *)
Definition hex8_ref : list R := ([
  -1; -1; -1;
  1; -1; -1;
  -1; 1; -1;
  1; 1; -1;
  -1; -1; 1;
  1; -1; 1;
  -1; 1; 1;
  1; 1; 1])%R.

(** elements/elements.cpp:4303-4332 Hex8::physical_position: the local basis array *)
Definition hex8_pos_basis (xi : list R) (out : list (option R)) : res (list (option R)) :=
  sloop 3 hex8_ref xi 0 1 8 (fun r x => 1/8 * (1 + x 0%nat*r 0%nat) * (1 + x 1%nat*r 1%nat) * (1 + x 2%nat*r 2%nat))%R out.

(** elements/elements.cpp:4303-4332 Hex8::physical_position *)
Definition hex8_physical_position (xp : list (option R)) (xi vertices : list R) : res (list (option R)) :=
  do b <- hex8_pos_basis xi (repeat None 8);
  accumulate_vd 3 8 vertices b xp.

(** elements/elements.cpp:4336-4350 Hex8::basis *)
Definition hex8_basis (xi : list R) (out : list (option R)) : res (list (option R)) :=
  sloop 3 hex8_ref xi 0 1 8 (fun r x => 1/8 * (1 + x 0%nat*r 0%nat) * (1 + x 1%nat*r 1%nat) * (1 + x 2%nat*r 2%nat))%R out.

(** elements/elements.cpp:4355-4371 Hex8::partial_xi_basis *)
Definition hex8_partial_xi_basis (xi : list R) (out : list (option R)) : res (list (option R)) :=
  sloop 3 hex8_ref xi 0 1 8 (fun r x => (1/8) * (r 0%nat) * (1 + x 1%nat*r 1%nat) * (1 + x 2%nat*r 2%nat))%R out.

(** elements/elements.cpp:4375-4388 Hex8::partial_eta_basis *)
Definition hex8_partial_eta_basis (xi : list R) (out : list (option R)) : res (list (option R)) :=
  sloop 3 hex8_ref xi 0 1 8 (fun r x => (1/8) * (1 + x 0%nat*r 0%nat) * (r 1%nat) * (1 + x 2%nat*r 2%nat))%R out.

(** elements/elements.cpp:4392-4405 Hex8::partial_mu_basis *)
Definition hex8_partial_mu_basis (xi : list R) (out : list (option R)) : res (list (option R)) :=
  sloop 3 hex8_ref xi 0 1 8 (fun r x => (1/8) * (1 + x 0%nat*r 0%nat) * (1 + x 1%nat*r 1%nat) * (r 2%nat))%R out.

(** elements/elements.cpp:4276-4286 Hex8::vert_to_node *)
Definition hex8_vert_to_node : list nat := [0; 2; 6; 8; 18; 20; 24; 24].

(** elements/elements.cpp:4408 Hex8::vert_node_map *)
Definition hex8_vert_node_map (v : nat) : res nat := get hex8_vert_to_node v.

(** elements/elements.cpp:4215-4256 Hex8::Hex8: the assignments surface_to_dof_lid(s,i) = v in order, on 6 rows of 4 *)
Definition hex8_surface : res (list (option nat)) :=
  surface_table 6 4 [(0,0,0); (0,1,1); (0,2,2); (0,3,3); (1,0,4); (1,1,5); (1,2,6); (1,3,7); (2,0,0); (2,1,1); (2,2,4); (2,3,5); (3,0,2); (3,1,3); (3,2,6); (3,3,7); (4,0,0); (4,1,2); (4,2,4); (4,3,6); (5,0,1); (5,1,3); (5,2,5); (5,3,7)].

(** elements/elements.cpp:4524-4552 Hex20::ref_vert *)
Definition hex20_ref : list R := ([
  -1; -1; -1;
  1; -1; -1;
  1; 1; -1;
  -1; 1; -1;
  -1; -1; 1;
  1; -1; 1;
  1; 1; 1;
  -1; 1; 1;
  0; -1; -1;
  1; 0; -1;
  0; 1; -1;
  -1; 0; -1;
  0; -1; 1;
  1; 0; 1;
  0; 1; 1;
  -1; 0; 1;
  -1; -1; 0;
  1; -1; 0;
  1; 1; 0;
  -1; 1; 0])%R.

(** elements/elements.cpp:4592-4647 Hex20::physical_position: the local basis array *)
Definition hex20_pos_basis (xi : list R) (out : list (option R)) : res (list (option R)) :=
  do out <- sloop 3 hex20_ref xi 0 1 8 (fun r x => 1/8 * (1 + x 0%nat*r 0%nat) * (1 + x 1%nat*r 1%nat) * (1 + x 2%nat*r 2%nat) * (x 0%nat*r 0%nat + x 1%nat*r 1%nat + x 2%nat*r 2%nat - 2))%R out;
  do out <- sloop 3 hex20_ref xi 8 2 4 (fun r x => 1/4 * (1 - x 0%nat*x 0%nat) * (1 + x 1%nat*r 1%nat) * (1 + x 2%nat*r 2%nat))%R out;
  do out <- sloop 3 hex20_ref xi 16 1 4 (fun r x => 1/4 * (1 + x 0%nat*r 0%nat) * (1 + x 1%nat*r 1%nat) * (1 - x 2%nat*x 2%nat))%R out;
  sloop 3 hex20_ref xi 9 2 4 (fun r x => 1/4 * (1 + x 0%nat*r 0%nat) * (1 - x 1%nat*x 1%nat) * (1 + x 2%nat*r 2%nat))%R out.

(** elements/elements.cpp:4592-4647 Hex20::physical_position *)
Definition hex20_physical_position (xp : list (option R)) (xi vertices : list R) : res (list (option R)) :=
  do b <- hex20_pos_basis xi (repeat None 20);
  accumulate_dv 3 20 vertices b xp.

(** elements/elements.cpp:4651-4692 Hex20::basis *)
Definition hex20_basis (xi : list R) (out : list (option R)) : res (list (option R)) :=
  do out <- sloop 3 hex20_ref xi 0 1 8 (fun r x => 1/8 * (1 + x 0%nat*r 0%nat) * (1 + x 1%nat*r 1%nat) * (1 + x 2%nat*r 2%nat) * (x 0%nat*r 0%nat + x 1%nat*r 1%nat + x 2%nat*r 2%nat - 2))%R out;
  do out <- sloop 3 hex20_ref xi 8 2 4 (fun r x => 1/4 * (1 - x 0%nat*x 0%nat) * (1 + x 1%nat*r 1%nat) * (1 + x 2%nat*r 2%nat))%R out;
  do out <- sloop 3 hex20_ref xi 16 1 4 (fun r x => 1/4 * (1 + x 0%nat*r 0%nat) * (1 + x 1%nat*r 1%nat) * (1 - x 2%nat*x 2%nat))%R out;
  sloop 3 hex20_ref xi 9 2 4 (fun r x => 1/4 * (1 + x 0%nat*r 0%nat) * (1 - x 1%nat*x 1%nat) * (1 + x 2%nat*r 2%nat))%R out.

(** elements/elements.cpp:4697-4739 Hex20::partial_xi_basis *)
Definition hex20_partial_xi_basis (xi : list R) (out : list (option R)) : res (list (option R)) :=
  do out <- sloop 3 hex20_ref xi 0 1 8 (fun r x => (1/8) * (r 0%nat) * (1 + (x 1%nat*r 1%nat)) * (1 + (x 2%nat*r 2%nat)) * (2 * (x 0%nat*r 0%nat) + x 1%nat*r 1%nat + x 2%nat*r 2%nat - 1))%R out;
  do out <- sloop 3 hex20_ref xi 8 2 4 (fun r x => (-1/2) * (x 0%nat) * (1 + x 1%nat*r 1%nat) * (1 + x 2%nat*r 2%nat))%R out;
  do out <- sloop 3 hex20_ref xi 9 2 4 (fun r x => (1/4) * (r 0%nat) * (1 + x 1%nat*r 1%nat) * (1 - x 2%nat*x 2%nat))%R out;
  sloop 3 hex20_ref xi 16 1 4 (fun r x => (1/4) * (r 0%nat) * (1 - x 1%nat*x 1%nat) * (1 + x 2%nat*r 2%nat))%R out.

(** elements/elements.cpp:4743-4784 Hex20::partial_eta_basis *)
Definition hex20_partial_eta_basis (xi : list R) (out : list (option R)) : res (list (option R)) :=
  do out <- sloop 3 hex20_ref xi 0 1 8 (fun r x => (1/8) * (1 + x 0%nat*r 0%nat) * (r 1%nat) * (1 + x 2%nat*r 2%nat) * (x 0%nat*r 0%nat + 2 * x 1%nat*r 1%nat + x 2%nat*r 2%nat - 1))%R out;
  do out <- sloop 3 hex20_ref xi 8 2 4 (fun r x => (1/4) * (1 - (x 0%nat*x 0%nat)) * (r 1%nat) * (1 + x 2%nat*r 2%nat))%R out;
  do out <- sloop 3 hex20_ref xi 9 2 4 (fun r x => (-1/2) * (1 + x 0%nat*r 0%nat) * (x 1%nat) * (1 + x 2%nat*r 2%nat))%R out;
  sloop 3 hex20_ref xi 16 1 4 (fun r x => (1/4) * (1 + x 0%nat*r 0%nat) * (r 1%nat) * (1 - (x 2%nat*x 2%nat)))%R out.

(** elements/elements.cpp:4788-4829 Hex20::partial_mu_basis *)
Definition hex20_partial_mu_basis (xi : list R) (out : list (option R)) : res (list (option R)) :=
  do out <- sloop 3 hex20_ref xi 0 1 8 (fun r x => (1/8) * (1 + x 0%nat*r 0%nat) * (1 + x 1%nat*r 1%nat) * (r 2%nat) * ((x 0%nat*r 0%nat) + (x 1%nat*r 1%nat) + (2 * x 2%nat*r 2%nat) - 1))%R out;
  do out <- sloop 3 hex20_ref xi 8 2 4 (fun r x => (1/4) * (1 - (x 0%nat*x 0%nat)) * (1 + x 1%nat*r 1%nat) * (r 2%nat))%R out;
  do out <- sloop 3 hex20_ref xi 9 2 4 (fun r x => (1/4) * (1 + x 0%nat*r 0%nat) * (1 - x 1%nat*x 1%nat) * (r 2%nat))%R out;
  sloop 3 hex20_ref xi 16 1 4 (fun r x => (-1/2) * (1 + x 0%nat*r 0%nat) * (1 + x 1%nat*r 1%nat) * (x 2%nat))%R out.

(** elements/elements.cpp:4554-4576 Hex20::vert_to_node *)
Definition hex20_vert_to_node : list nat := [0; 4; 24; 20; 100; 104; 124; 120; 2; 14; 22; 10; 102; 114; 122; 110; 50; 54; 74; 70].

(** elements/elements.cpp:4834 Hex20::vert_node_map *)
Definition hex20_vert_node_map (v : nat) : res nat := get hex20_vert_to_node v.

(** elements/elements.cpp:4453-4518 Hex20::Hex20: the assignments surface_to_dof_lid(s,i) = v in order, on 6 rows of 8 *)
Definition hex20_surface : res (list (option nat)) :=
  surface_table 6 8 [(0,0,0); (0,1,8); (0,2,1); (0,3,11); (0,4,9); (0,5,3); (0,6,10); (0,7,2); (1,0,4); (1,1,12); (1,2,5); (1,3,15); (1,4,13); (1,5,7); (1,6,14); (1,7,6); (3,0,0); (3,1,8); (3,2,1); (3,3,16); (3,4,17); (3,5,4); (3,6,12); (3,7,5); (3,0,3); (3,1,10); (3,2,2); (3,3,19); (3,4,18); (3,5,7); (3,6,14); (3,7,6); (4,0,0); (4,1,11); (4,2,3); (4,3,16); (4,4,19); (4,5,4); (4,6,15); (4,7,7); (5,0,1); (5,1,9); (5,2,2); (5,3,17); (5,4,18); (5,5,5); (5,6,13); (5,7,6)].

(** elements/elements.cpp:4977-5014 Hex32::ref_vert *)
Definition hex32_ref : list R := ([
  -1; -1; -1;
  1; -1; -1;
  1; 1; -1;
  -1; 1; -1;
  -1; -1; 1;
  1; -1; 1;
  1; 1; 1;
  -1; 1; 1;
  -1; - (1/3); -1;
  1; - (1/3); -1;
  1; 1/3; -1;
  -1; 1/3; -1;
  -1; - (1/3); 1;
  1; - (1/3); 1;
  1; 1/3; 1;
  -1; 1/3; 1;
  - (1/3); -1; -1;
  1/3; -1; -1;
  1/3; 1; -1;
  - (1/3); 1; -1;
  - (1/3); -1; 1;
  1/3; -1; 1;
  1/3; 1; 1;
  - (1/3); 1; 1;
  -1; -1; - (1/3);
  1; -1; - (1/3);
  1; 1; - (1/3);
  -1; 1; - (1/3);
  -1; -1; 1/3;
  1; -1; 1/3;
  1; 1; 1/3;
  -1; 1; 1/3])%R.

(** elements/elements.cpp:5067-5128 Hex32::physical_position: the local basis array *)
Definition hex32_pos_basis (xi : list R) (out : list (option R)) : res (list (option R)) :=
  do out <- sloop 3 hex32_ref xi 0 1 8 (fun r x => (1/64) * (1 + x 0%nat*r 0%nat) * (1 + x 1%nat*r 1%nat) * (1 + x 2%nat*r 2%nat) * (9 * x 0%nat*x 0%nat + 9 * x 1%nat*x 1%nat + 9 * x 2%nat*x 2%nat - 19))%R out;
  do out <- sloop 3 hex32_ref xi 8 1 8 (fun r x => (9/64) * (1 + x 0%nat*r 0%nat) * (1 - x 1%nat*x 1%nat) * (1 + 9 * x 1%nat*r 1%nat) * (1 + x 2%nat*r 2%nat))%R out;
  do out <- sloop 3 hex32_ref xi 16 1 8 (fun r x => (9/64) * (1 - x 0%nat*x 0%nat) * (1 + 9 * x 0%nat*r 0%nat) * (1 + x 1%nat*r 1%nat) * (1 + x 2%nat*r 2%nat))%R out;
  sloop 3 hex32_ref xi 24 1 8 (fun r x => (9/64) * (1 + x 0%nat*r 0%nat) * (1 + x 1%nat*r 1%nat) * (1 + 9 * x 2%nat*r 2%nat) * (1 - x 2%nat*x 2%nat))%R out.

(** elements/elements.cpp:5067-5128 Hex32::physical_position (the last loop has <= num_verts_) *)
Definition hex32_physical_position (xp : list (option R)) (xi vertices : list R) : res (list (option R)) :=
  do b <- hex32_pos_basis xi (repeat None 32);
  accumulate_vd 3 33 vertices b xp.

(** elements/elements.cpp:5131-5175 Hex32::basis *)
Definition hex32_basis (xi : list R) (out : list (option R)) : res (list (option R)) :=
  do out <- sloop 3 hex32_ref xi 0 1 8 (fun r x => (1/64) * (1 + x 0%nat*r 0%nat) * (1 + x 1%nat*r 1%nat) * (1 + x 2%nat*r 2%nat) * (9 * x 0%nat*x 0%nat + 9 * x 1%nat*x 1%nat + 9 * x 2%nat*x 2%nat - 19))%R out;
  do out <- sloop 3 hex32_ref xi 8 1 8 (fun r x => (9/64) * (1 + x 0%nat*r 0%nat) * (1 - x 1%nat*x 1%nat) * (1 + 9 * x 1%nat*r 1%nat) * (1 + x 2%nat*r 2%nat))%R out;
  do out <- sloop 3 hex32_ref xi 16 1 8 (fun r x => (9/64) * (1 - x 0%nat*x 0%nat) * (1 + 9 * x 0%nat*r 0%nat) * (1 + x 1%nat*r 1%nat) * (1 + x 2%nat*r 2%nat))%R out;
  sloop 3 hex32_ref xi 24 1 8 (fun r x => (9/64) * (1 + x 0%nat*r 0%nat) * (1 + x 1%nat*r 1%nat) * (1 + 9 * x 2%nat*r 2%nat) * (1 - x 2%nat*x 2%nat))%R out.

(** elements/elements.cpp:5179-5223 Hex32::partial_xi_basis *)
Definition hex32_partial_xi_basis (xi : list R) (out : list (option R)) : res (list (option R)) :=
  do out <- sloop 3 hex32_ref xi 0 1 8 (fun r x => (1/64) * (1 + x 1%nat * r 1%nat) * (1 + x 2%nat * r 2%nat) *((9 * (r 0%nat) * (x 0%nat*x 0%nat + x 1%nat*x 1%nat + x 2%nat*x 2%nat)) + (18 * x 0%nat * (1 + x 0%nat*r 0%nat)) - (19 * r 0%nat)))%R out;
  do out <- sloop 3 hex32_ref xi 8 1 8 (fun r x => (9/64) * (r 0%nat) * (1 + x 1%nat * r 1%nat) * (1 + 9 * x 2%nat * r 2%nat) * (1 - x 2%nat * x 2%nat))%R out;
  do out <- sloop 3 hex32_ref xi 16 1 8 (fun r x => (9/64) * (1 + x 1%nat * r 1%nat) * (1 + x 2%nat * r 2%nat) * (9 * r 0%nat * (1 - 3 * x 0%nat * x 0%nat) - (2 * x 0%nat)))%R out;
  sloop 3 hex32_ref xi 24 1 8 (fun r x => (9/64) * (r 0%nat) * (1 - x 1%nat * x 1%nat) * (1 + 9 * x 1%nat * r 1%nat) * (1 + x 2%nat * r 2%nat))%R out.

(** elements/elements.cpp:5228-5274 Hex32::partial_eta_basis *)
Definition hex32_partial_eta_basis (xi : list R) (out : list (option R)) : res (list (option R)) :=
  do out <- sloop 3 hex32_ref xi 0 1 8 (fun r x => (1/64) * (1 + x 0%nat * r 0%nat) * (1 + x 2%nat * r 2%nat) *((9 * r 1%nat * (x 0%nat*x 0%nat + x 1%nat*x 1%nat + x 2%nat*x 2%nat)) + (18 * x 1%nat * (1 + x 1%nat*r 1%nat)) - (19 * r 1%nat)))%R out;
  do out <- sloop 3 hex32_ref xi 8 1 8 (fun r x => (9/64) * (1 + x 0%nat * r 0%nat) * (1 + x 2%nat * r 2%nat) *((9 * r 1%nat * (1 - 3 * x 1%nat * x 1%nat)) - (2 * x 1%nat)))%R out;
  do out <- sloop 3 hex32_ref xi 16 1 8 (fun r x => (9/64) * (1 - x 0%nat * x 0%nat) * (1 + 9 * x 0%nat * r 0%nat) * (r 1%nat) * (1 + x 2%nat * r 2%nat))%R out;
  sloop 3 hex32_ref xi 24 1 8 (fun r x => (9/64) * (1 + x 0%nat * r 0%nat) * (r 1%nat) * (1 + 9 * x 2%nat * r 2%nat) * (1 - x 2%nat * x 2%nat))%R out.

(** elements/elements.cpp:5279-5327 Hex32::partial_mu_basis *)
Definition hex32_partial_mu_basis (xi : list R) (out : list (option R)) : res (list (option R)) :=
  do out <- sloop 3 hex32_ref xi 0 1 8 (fun r x => (1/64) * (1 + x 0%nat * r 0%nat) * (1 + x 1%nat * r 1%nat) *((9 * (r 2%nat) * (x 0%nat*x 0%nat + x 1%nat*x 1%nat + x 2%nat*x 2%nat)) + (18 * x 2%nat * (1 + x 2%nat*r 2%nat)) - (19 * r 2%nat)))%R out;
  do out <- sloop 3 hex32_ref xi 8 1 8 (fun r x => (9/64) * (1 + x 0%nat * r 0%nat) * (1 - x 1%nat * x 1%nat) * (1 + 9 * x 1%nat * r 1%nat) * (r 2%nat))%R out;
  do out <- sloop 3 hex32_ref xi 16 1 8 (fun r x => (9/64) * (1 - x 0%nat * x 0%nat) * (1 + 9 * x 0%nat * r 0%nat) * (1 + x 1%nat * r 1%nat) * (r 2%nat))%R out;
  sloop 3 hex32_ref xi 24 1 8 (fun r x => (9/64) * (1 + x 0%nat * r 0%nat) * (1 + x 1%nat * r 1%nat) *((9 * r 2%nat * (1 - 3 * x 2%nat * x 2%nat)) - (2 * x 2%nat)))%R out.

(** elements/elements.cpp:5016-5050 Hex32::vert_to_node *)
Definition hex32_vert_to_node : list nat := [0; 6; 48; 42; 294; 300; 342; 336; 14; 20; 32; 28; 308; 314; 328; 322; 2; 4; 46; 44; 296; 298; 340; 338; 98; 104; 146; 140; 196; 202; 244; 298].

(** elements/elements.cpp:5331 Hex32::vert_node_map *)
Definition hex32_vert_node_map (v : nat) : res nat := get hex32_vert_to_node v.

(** elements/elements.cpp:4882-4971 Hex32::Hex32: the assignments surface_to_dof_lid(s,i) = v in order, on 6 rows of 12 *)
Definition hex32_surface : res (list (option nat)) :=
  surface_table 6 12 [(0,0,0); (0,1,16); (0,2,17); (0,3,1); (0,4,8); (0,5,9); (0,6,11); (0,7,10); (0,8,3); (0,9,19); (0,10,18); (0,11,2); (1,0,4); (1,1,20); (1,2,21); (1,3,5); (1,4,12); (1,5,13); (1,6,15); (1,7,14); (1,8,7); (1,9,23); (1,10,22); (1,11,6); (2,0,0); (2,1,16); (2,2,17); (2,3,1); (2,4,24); (2,5,25); (2,6,28); (2,7,29); (2,8,4); (2,9,20); (2,10,21); (2,11,25); (3,0,3); (3,1,19); (3,2,18); (3,3,2); (3,4,27); (3,5,26); (3,6,31); (3,7,30); (3,8,7); (3,9,23); (3,10,22); (3,11,6); (4,0,0); (4,1,8); (4,2,11); (4,3,3); (4,4,24); (4,5,27); (4,6,28); (4,7,31); (4,8,4); (4,9,12); (4,10,15); (4,11,7); (5,0,1); (5,1,9); (5,2,10); (5,3,2); (5,4,25); (5,5,26); (5,6,29); (5,7,30); (5,8,5); (5,9,13); (5,10,14); (5,11,6)].

(** elements/elements.cpp:5928-5950 Tess16::ref_vert *)
Definition tess16_ref : list R := ([
  -1; -1; -1; -1;
  1; -1; -1; -1;
  1; -1; 1; -1;
  -1; -1; 1; -1;
  -1; 1; -1; -1;
  1; 1; -1; -1;
  1; 1; 1; -1;
  -1; 1; 1; -1;
  -1; -1; -1; 1;
  1; -1; -1; 1;
  1; -1; 1; 1;
  -1; -1; 1; 1;
  -1; 1; -1; 1;
  1; 1; -1; 1;
  1; 1; 1; 1;
  -1; 1; 1; 1])%R.

(** elements/elements.cpp:5954-5984 Tess16::physical_position: the local basis array *)
Definition tess16_pos_basis (xi : list R) (out : list (option R)) : res (list (option R)) :=
  sloop 4 tess16_ref xi 0 1 16 (fun r x => 1/16 * (1 + x 0%nat*r 0%nat) * (1 + x 1%nat*r 1%nat) * (1 + x 2%nat*r 2%nat) * (1 + x 3%nat*r 3%nat))%R out.

(** elements/elements.cpp:5954-5984 Tess16::physical_position *)
Definition tess16_physical_position (xp : list (option R)) (xi vertices : list R) : res (list (option R)) :=
  do b <- tess16_pos_basis xi (repeat None 16);
  accumulate_vd 4 16 vertices b xp.

(** elements/elements.cpp:5988-6003 Tess16::basis *)
Definition tess16_basis (xi : list R) (out : list (option R)) : res (list (option R)) :=
  sloop 4 tess16_ref xi 0 1 16 (fun r x => 1/16 * (1 + x 0%nat*r 0%nat) * (1 + x 1%nat*r 1%nat) * (1 + x 2%nat*r 2%nat) * (1 + x 3%nat*r 3%nat))%R out.

(** elements/elements.cpp:6007-6021 Tess16::partial_xi_basis *)
Definition tess16_partial_xi_basis (xi : list R) (out : list (option R)) : res (list (option R)) :=
  sloop 4 tess16_ref xi 0 1 16 (fun r x => 1/16 * (r 0%nat) * (1 + x 1%nat*r 1%nat) * (1 + x 2%nat*r 2%nat) * (1 + x 3%nat*r 3%nat))%R out.

(** elements/elements.cpp:6025-6039 Tess16::partial_eta_basis *)
Definition tess16_partial_eta_basis (xi : list R) (out : list (option R)) : res (list (option R)) :=
  sloop 4 tess16_ref xi 0 1 16 (fun r x => 1/16 * (1 + x 0%nat*r 0%nat) * (r 1%nat) * (1 + x 2%nat*r 2%nat) * (1 + x 3%nat*r 3%nat))%R out.

(** elements/elements.cpp:6043-6057 Tess16::partial_mu_basis *)
Definition tess16_partial_mu_basis (xi : list R) (out : list (option R)) : res (list (option R)) :=
  sloop 4 tess16_ref xi 0 1 16 (fun r x => 1/16 * (1 + x 0%nat*r 0%nat) * (1 + x 1%nat*r 1%nat) * (r 2%nat) * (1 + x 3%nat*r 3%nat))%R out.

(** elements/elements.cpp:6061-6075 Tess16::partial_tau_basis *)
Definition tess16_partial_tau_basis (xi : list R) (out : list (option R)) : res (list (option R)) :=
  sloop 4 tess16_ref xi 0 1 16 (fun r x => 1/16 * (1 + x 0%nat*r 0%nat) * (1 + x 1%nat*r 1%nat) * (1 + x 2%nat*r 2%nat) * (r 3%nat))%R out.

(** The element classes declared in elements/elements.h:405-1170, with their sizes, tables and methods. *)
Inductive elem : Set := Quad4 | Quad8 | Quad12 | Hex8 | Hex20 | Hex32 | Tess16.

Definition e_dim (E : elem) : nat :=
  match E with
  | Quad4 => 2
  | Quad8 => 2
  | Quad12 => 2
  | Hex8 => 3
  | Hex20 => 3
  | Hex32 => 3
  | Tess16 => 4
  end.

Definition e_nv (E : elem) : nat :=
  match E with
  | Quad4 => 4
  | Quad8 => 8
  | Quad12 => 12
  | Hex8 => 8
  | Hex20 => 20
  | Hex32 => 32
  | Tess16 => 16
  end.

Definition e_ref (E : elem) : list R :=
  match E with
  | Quad4 => quad4_ref
  | Quad8 => quad8_ref
  | Quad12 => quad12_ref
  | Hex8 => hex8_ref
  | Hex20 => hex20_ref
  | Hex32 => hex32_ref
  | Tess16 => tess16_ref
  end.

Definition e_basis (E : elem) : list R -> list (option R) -> res (list (option R)) :=
  match E with
  | Quad4 => quad4_basis
  | Quad8 => quad8_basis
  | Quad12 => quad12_basis
  | Hex8 => hex8_basis
  | Hex20 => hex20_basis
  | Hex32 => hex32_basis
  | Tess16 => tess16_basis
  end.

Definition e_position (E : elem) : list (option R) -> list R -> list R -> res (list (option R)) :=
  match E with
  | Quad4 => quad4_physical_position
  | Quad8 => quad8_physical_position
  | Quad12 => quad12_physical_position
  | Hex8 => hex8_physical_position
  | Hex20 => hex20_physical_position
  | Hex32 => hex32_physical_position
  | Tess16 => tess16_physical_position
  end.

(** partial_xi_basis, partial_eta_basis, partial_mu_basis, partial_tau_basis are directions 0..3; other directions do not exist *)
Definition e_partial (E : elem) (d : nat) : list R -> list (option R) -> res (list (option R)) :=
  match E with
  | Quad4 => match d with | 0 => quad4_partial_xi_basis | 1 => quad4_partial_eta_basis | _ => fun _ _ => Err OOB end
  | Quad8 => match d with | 0 => quad8_partial_xi_basis | 1 => quad8_partial_eta_basis | _ => fun _ _ => Err OOB end
  | Quad12 => match d with | 0 => quad12_partial_xi_basis | 1 => quad12_partial_eta_basis | _ => fun _ _ => Err OOB end
  | Hex8 => match d with | 0 => hex8_partial_xi_basis | 1 => hex8_partial_eta_basis | 2 => hex8_partial_mu_basis | _ => fun _ _ => Err OOB end
  | Hex20 => match d with | 0 => hex20_partial_xi_basis | 1 => hex20_partial_eta_basis | 2 => hex20_partial_mu_basis | _ => fun _ _ => Err OOB end
  | Hex32 => match d with | 0 => hex32_partial_xi_basis | 1 => hex32_partial_eta_basis | 2 => hex32_partial_mu_basis | _ => fun _ _ => Err OOB end
  | Tess16 => match d with | 0 => tess16_partial_xi_basis | 1 => tess16_partial_eta_basis | 2 => tess16_partial_mu_basis | 3 => tess16_partial_tau_basis | _ => fun _ _ => Err OOB end
  end.

(** Tess16 declares neither vert_node_map nor surface_to_dof_lid *)
Definition e_vert_node_map (E : elem) : nat -> res nat :=
  match E with
  | Quad4 => quad4_vert_node_map
  | Quad8 => quad8_vert_node_map
  | Quad12 => quad12_vert_node_map
  | Hex8 => hex8_vert_node_map
  | Hex20 => hex20_vert_node_map
  | Hex32 => hex32_vert_node_map
  | Tess16 => fun _ => Err OOB
  end.

Definition e_surface (E : elem) : res (list (option nat)) :=
  match E with
  | Quad4 => quad4_surface
  | Quad8 => quad8_surface
  | Quad12 => quad12_surface
  | Hex8 => hex8_surface
  | Hex20 => hex20_surface
  | Hex32 => hex32_surface
  | Tess16 => Ok []
  end.
