(** Property theorems C26-C28 (swage/swage.cpp: patches, boundary patches, boundary sets). *)
From Coq Require Import List Arith ZArith Lia Sorted.
Import ListNotations.
Require Import Verif.Base Verif.Spec_Conn Verif.Model_Conn Verif.Model_Patch Verif.Spec_Patch Verif.Proof_Patch Verif.Proof_Bdy.

(** C26: for every list of face keys (6 per cell) the builder succeeds; two sides get the same patch
    iff their keys agree; patches are numbered in first-seen order; the two cell (side) entries of a
    patch are its first and last owner, the second being -1 if there is only one; the patch's nodes are
    those of the first owner. *)
Theorem C26_patches : forall ncells nnodes keys nodes,
  length keys = ncells * 6 -> mesh_ok 8 ncells nnodes nodes ->
  exists m, build_patches ncells keys nodes = Ok m /\ pt_nsides m = ncells * 6 /\
    (forall c s, c < ncells -> s < 6 -> sides_in_cell m c s = Ok (c * 6 + s) /\
       exists p, p < pt_num m /\ patches_in_cell m c s = Ok (Z.of_nat p)) /\
    (forall c s c' s', c < ncells -> s < 6 -> c' < ncells -> s' < 6 ->
       (patches_in_cell m c s = patches_in_cell m c' s' <-> nth (c * 6 + s) keys 0 = nth (c' * 6 + s') keys 0)) /\
    (forall c s, c < ncells -> s < 6 -> first_with_key keys (c * 6 + s) = true ->
       patches_in_cell m c s = Ok (Z.of_nat (firsts_before keys (c * 6 + s)))) /\
    (forall p, p < pt_num m -> exists q0 rest,
       patches_in_cell m (q0 / 6) (q0 mod 6) = Ok (Z.of_nat p) /\
       sides_with_key keys (nth q0 keys 0) = q0 :: rest /\
       cells_in_patch m p 0 = Ok (Z.of_nat (q0 / 6)) /\
       sides_in_patch m p 0 = Ok (Z.of_nat q0) /\
       cells_in_patch m p 1 = Ok (match rest with [] => (-1)%Z | _ => Z.of_nat (last rest 0 / 6) end) /\
       sides_in_patch m p 1 = Ok (match rest with [] => (-1)%Z | _ => Z.of_nat (last rest 0) end) /\
       forall k, k < 4 -> exists n, node_in_patch_in_cell nodes (q0 / 6) (q0 mod 6) k = Ok n /\
         node_in_patch m p k = Ok (Z.of_nat n)).
Proof. exact patch_spec. Qed.
Print Assumptions C26_patches.

(** the side table lists, for side s, exactly the four local corners lying on that side *)
Theorem C26_side_corners : forall nodes cell s n, s < 6 -> length nodes = (cell + 1) * 8 ->
  ((exists k, k < 4 /\ node_in_patch_in_cell nodes cell s k = Ok n) <->
   (exists l, on_side s l /\ nth_error nodes (cell * 8 + l) = Some n)).
Proof.
  intros nodes cell s n Hs L.
  assert (G : forall l, l < 8 -> get nodes (cell * 8 + l) = Ok n <-> nth_error nodes (cell * 8 + l) = Some n).
  { intros l Hl. unfold get. destruct (nth_error nodes (cell * 8 + l)) as [x|]; split; intros H; inversion H; reflexivity. }
  assert (T : forall k, k < 4 -> exists l, nth_error patch_node_table (k + s * 4) = Some l /\ on_side s l).
  { intros k Hk. do 6 (destruct s as [|s]; [do 4 (destruct k as [|k]; [eexists; split; [reflexivity|split; [lia|reflexivity]]|]); lia|]). lia. }
  assert (U : forall l, on_side s l -> exists k, k < 4 /\ nth_error patch_node_table (k + s * 4) = Some l).
  { intros l (Hl & E). clear - Hs Hl E. revert l Hl E. 
    assert (F : forallb (fun s => forallb (fun l => negb (Nat.eqb (corner_coord l (s / 2)) (s mod 2)) ||
        existsb (fun k => match nth_error patch_node_table (k + s * 4) with Some x => Nat.eqb x l | None => false end) (seq 0 4))%bool
        (seq 0 8)) (seq 0 6) = true) by reflexivity.
    rewrite forallb_forall in F. specialize (F s). rewrite in_seq in F. specialize (F ltac:(lia)).
    rewrite forallb_forall in F. intros l Hl E. specialize (F l). rewrite in_seq in F. specialize (F ltac:(lia)).
    rewrite E, Nat.eqb_refl in F. simpl negb in F. rewrite Bool.orb_false_l in F. apply existsb_exists in F.
    destruct F as (k & Hk & Ek). apply in_seq in Hk. exists k. split; [lia|].
    destruct (nth_error patch_node_table (k + s * 4)) as [x|]; [|discriminate]. apply Nat.eqb_eq in Ek. congruence. }
  split.
  - intros (k & Hk & E). destruct (T k Hk) as (l & El & Ol). exists l. split; [exact Ol|].
    unfold node_in_patch_in_cell in E. unfold get in E at 1. rewrite El in E. cbn [bind] in E.
    apply (G l (proj1 Ol)). exact E.
  - intros (l & Ol & E). destruct (U l Ol) as (k & Hk & Ek). exists k. split; [exact Hk|].
    unfold node_in_patch_in_cell. unfold get at 1. rewrite Ek. cbn [bind]. apply (G l (proj1 Ol)). exact E.
Qed.
Print Assumptions C26_side_corners.

(** C27: the boundary patches are, in increasing order and without repetition, exactly the patches
    whose second cell entry is -1; a cell side is on one of them iff no other side has its key. *)
Theorem C27_boundary_patches : forall ncells nnodes keys nodes m,
  length keys = ncells * 6 -> mesh_ok 8 ncells nnodes nodes -> build_patches ncells keys nodes = Ok m ->
  exists B, build_bdy_patches (pt_num m) (pt_cells m) = Ok (map Some B) /\ Sorted lt B /\
    (forall p, In p B <-> p < pt_num m /\ cells_in_patch m p 1 = Ok (-1)%Z) /\
    (forall c s, c < ncells -> s < 6 ->
       ((exists p, patches_in_cell m c s = Ok (Z.of_nat p) /\ In p B) <->
        forall c' s', c' < ncells -> s' < 6 -> nth (c' * 6 + s') keys 0 = nth (c * 6 + s) keys 0 -> c' = c /\ s' = s)).
Proof. exact bdy_spec. Qed.
Print Assumptions C27_boundary_patches.

(** C28: tagging sets 0 .. k-1 in order, each with its own predicate, gives every set exactly the
    boundary patches satisfying its predicate, in boundary order; earlier sets are not disturbed. *)
Theorem C28_sets_in_order : forall nsets bdy pr k, 0 < nsets -> k <= nsets ->
  exists b, loop k (fun i b => tag_bdys bdy (fun p => Ok (pr i p)) i b) (init_bdy_sets nsets (length bdy)) = Ok b /\
    forall i, i < k -> num_bdy_patches_in_set b i = Ok (length (filter (pr i) bdy)) /\
      forall j, j < length (filter (pr i) bdy) -> bdy_patches_in_set b i j = Ok (nth j (filter (pr i) bdy) 0).
Proof. intros S bdy pr k HS Hk. exact (tag_all S bdy pr HS k Hk). Qed.
Print Assumptions C28_sets_in_order.

(** tagging a set that is not the next one on a fresh object reads an unset offset (or outside the
    array); the set index equal to the number of sets ends the program *)
Theorem C28_out_of_order_unset : forall nsets bdy chk i, 0 < nsets -> 0 < i -> i <> nsets ->
  tag_bdys bdy chk i (init_bdy_sets nsets (length bdy)) = Err (if i <? nsets then Uninit else OOB).
Proof. intros S bdy chk i HS. apply tag_fresh_out_of_order. exact HS. Qed.
Print Assumptions C28_out_of_order_unset.

Theorem C28_index_n_exits : forall bdy chk b, tag_bdys bdy chk (bs_n b) b = Err Exited.
Proof. intros. apply (tag_exit (bs_n b)). reflexivity. Qed.
Print Assumptions C28_index_n_exits.

(** retagging set 0 after set 1 with a smaller selection makes set 1 read the wrong patches *)
Theorem C28_retag_corrupts_refuted : exists bdy (p0 p1 p0' : nat -> bool) b0 b1 b2,
  tag_bdys bdy (fun p => Ok (p0 p)) 0 (init_bdy_sets 2 (length bdy)) = Ok b0 /\
  tag_bdys bdy (fun p => Ok (p1 p)) 1 b0 = Ok b1 /\
  tag_bdys bdy (fun p => Ok (p0' p)) 0 b1 = Ok b2 /\
  bdy_patches_in_set b1 1 0 = Ok 7 /\ p1 7 = true /\
  num_bdy_patches_in_set b2 1 = Ok 1 /\ bdy_patches_in_set b2 1 0 = Ok 6 /\ p1 6 = false.
Proof.
  exists [5; 6; 7], (fun p => p <? 7), (fun p => p =? 7), (fun p => p =? 5).
  eexists _, _, _. repeat split; vm_compute; reflexivity.
Qed.
Print Assumptions C28_retag_corrupts_refuted.

(** ---- two hexahedra: side 1 of cell 0 and side 0 of cell 1 share key 11 ---- *)
Example patch_nonvacuous :
  let keys := [3;11;5;9;2;14; 11;20;6;10;4;15] in
  let nodes := [0;1;3;2;4;5;7;6; 1;8;3;9;5;10;7;11] in
  length keys = 2 * 6 /\ mesh_ok 8 2 12 nodes /\
  exists m, build_patches 2 keys nodes = Ok m /\ pt_num m = 11 /\
    patches_in_cell m 0 1 = Ok 1%Z /\ patches_in_cell m 1 0 = Ok 1%Z /\
    cells_in_patch m 1 0 = Ok 0%Z /\ cells_in_patch m 1 1 = Ok 1%Z /\ cells_in_patch m 0 1 = Ok (-1)%Z /\
    build_bdy_patches (pt_num m) (pt_cells m) = Ok (map Some [0;2;3;4;5;6;7;8;9;10]).
Proof.
  cbv zeta. split; [reflexivity|]. split; [split; [reflexivity|repeat constructor]|].
  eexists. split; [vm_compute; reflexivity|]. repeat split.
Qed.
