(** C64: what a graphics dump of examples/average contains (average.cpp:1001-1289). *)
From Coq Require Import Reals List Arith ZArith Lra Lia Bool.
Import ListNotations.
Require Import Verif.Base Verif.RBase Verif.Spec_Full Verif.Spec_Box Verif.Spec_File Verif.Model_Full Verif.Model_Average Verif.Model_File Verif.Spec_Average Verif.Spec_Dump Verif.Proof_File Verif.Proof_File2 Verif.Proof_Dump Verif.Prop_High Verif.Prop_Full2.
Local Open Scope nat_scope.

(** the files of a dump, explicitly; the list of times grows by the current one *)
Theorem C64_dump : forall fmt sv N X mat now id times, let m := sv_mesh sv in let K := sv_ns sv * sv_ns sv * sv_ns sv in
  cdescribes m N X -> length mat = cm_cells m -> sv_elems sv * K = cm_cells m -> id < length times ->
  ensight fmt sv mat now id times = Ok (dumps fmt (cm_nodes m) (cm_cells m) K N X (val mat) id (firstn id times ++ [now]), id + 1, firstn id times ++ now :: skipn (S id) times).
Proof. intros fmt sv N X mat now id times m K HM Lm HE Hid. apply ensight_ok; assumption. Qed.
Print Assumptions C64_dump.

(** no room for another time (the array has 250 entries): out of bounds *)
Theorem C64_full : forall fmt sv N X mat now id times, let m := sv_mesh sv in let K := sv_ns sv * sv_ns sv * sv_ns sv in
  cdescribes m N X -> length mat = cm_cells m -> sv_elems sv * K = cm_cells m -> length times <= id ->
  ensight fmt sv mat now id times = Err OOB.
Proof. intros fmt sv N X mat now id times m K HM Lm HE Hid. apply (ensight_full fmt sv N X); assumption. Qed.
Print Assumptions C64_full.

(** k dumps one after the other, dump i of the cell field mat i at time now i: they are numbered 0 to k-1 and
    dump i lists the times of dumps 0 to i; it takes no more than the room for the times *)
Definition dump_all (fmt : R -> R) (sv : solver) (mat : nat -> list R) (now : nat -> R) (k : nat) (times : list R) : res (list dump * nat * list R) :=
  loop k (fun i '(ds, id, ts) => do (d, id, ts) <- ensight fmt sv (mat i) (now i) id ts; Ok (ds ++ [d], id, ts)) ([], 0, times).
Theorem C64_series : forall fmt sv N X mat now k times, let m := sv_mesh sv in let K := sv_ns sv * sv_ns sv * sv_ns sv in
  cdescribes m N X -> (forall i, length (mat i) = cm_cells m) -> sv_elems sv * K = cm_cells m -> k <= length times ->
  exists ts, length ts = length times /\ dump_all fmt sv mat now k times =
    Ok (map (fun i => dumps fmt (cm_nodes m) (cm_cells m) K N X (val (mat i)) i (map now (seq 0 (i + 1)))) (seq 0 k), k, ts).
Proof.
  intros fmt sv N X mat now k times m K HM Lm HE Hk. unfold dump_all.
  edestruct (loop_inv (fun i (st : list dump * nat * list R) => let '(ds, id, ts) := st in
    ds = map (fun i => dumps fmt (cm_nodes m) (cm_cells m) K N X (val (mat i)) i (map now (seq 0 (i + 1)))) (seq 0 i) /\ id = i /\ length ts = length times /\ firstn i ts = map now (seq 0 i)) k) as ([[ds id] ts] & E & H1 & H2 & H3 & _).
  3:{ exists ts. split; [exact H3|]. rewrite E, H1, H2. reflexivity. }
  - cbn. auto.
  - intros i [[ds id] ts] Hi (H1 & -> & H3 & H4). rewrite (ensight_ok fmt sv N X (mat i) HM (Lm i) HE) by lia. cbn [bind].
    rewrite H4. eexists. split; [reflexivity|]. split; [|split; [lia|split]].
    + rewrite seq_S, map_app, H1. cbn [map Nat.add]. do 3 f_equal. rewrite Nat.add_1_r, seq_S, map_app. reflexivity.
    + rewrite app_length, map_length, seq_length. cbn [length]. rewrite skipn_length. lia.
    + rewrite seq_S, map_app. cbn [map Nat.add]. rewrite firstn_app, map_length, seq_length. replace (S i - i) with 1 by lia. rewrite firstn_cons, firstn_O. rewrite firstn_all2 by (rewrite map_length, seq_length; lia). reflexivity.
Qed.
Print Assumptions C64_series.

(** the geometry of a dump, as a mesh file, lists every cell with its corners mirrored in the first direction *)
Theorem C64_lists : forall fmt nn nc K N X g id ts,
  lists_mesh (dump_text nn nc (dumps fmt nn nc K N X g id ts)) nn nc (fun n d => fmt (X n d)) (mirrored N).
Proof.
  intros fmt nn nc K N X g id ts. exists []. unfold dump_text, geo_text, dumps. cbn [du_coords du_cells]. unfold by_component, cell_rows. rewrite app_nil_r. f_equal.
  rewrite !map_flat_map. f_equal.
  - apply flat_map_ext. intros d. rewrite map_map. reflexivity.
  - do 2 f_equal. apply flat_map_ext. intros c. rewrite !map_map. apply map_ext. intros v. f_equal. lia.
Qed.
Print Assumptions C64_lists.

(** so reading a dump back gives the same nodes (up to the printed precision) and mirrored cells *)
Theorem C64_reread : forall fmt nn nc K N X g id ts, (forall c l, c < nc -> l < 8 -> N c l < nn) ->
  exists m' N', parse_mesh (dump_text nn nc (dumps fmt nn nc K N X g id ts)) = Ok m' /\ cm_nodes m' = nn /\ cm_cells m' = nc /\ cdescribes m' N' (fun n d => fmt (X n d)) /\
    forall c i j k, c < nc -> i < 2 -> j < 2 -> k < 2 -> N' c (i + 2 * j + 4 * k) = N c ((1 - i) + 2 * j + 4 * k).
Proof.
  intros fmt nn nc K N X g id ts HN.
  assert (HV : forall e v, e < nc -> v < 8 -> mirrored N e v < nn) by (intros e v He Hv; unfold mirrored; do 8 (destruct v as [|v]; [cbn; apply HN; lia|]); lia).
  destruct (lists_parse _ _ _ _ _ (C64_lists fmt nn nc K N X g id ts) HV) as (m' & E & E1 & E2 & HM).
  exists m', (fun e l => mirrored N e (vert l)). split; [exact E|]. split; [exact E1|]. split; [exact E2|]. split; [exact HM|].
  intros c i j k Hc Hi Hj Hk. destruct i as [|[|i]], j as [|[|j]], k as [|[|k]]; try lia; reflexivity.
Qed.
Print Assumptions C64_reread.

(** a right-handed parallelepiped (corner i + 2j + 4k at o + iu + jv + kw) is listed left-handed *)
Theorem C64_inverted : forall N X c o u v w,
  (forall i j k d, i < 2 -> j < 2 -> k < 2 -> d < 3 -> X (N c (i + 2 * j + 4 * k)) d = (o d + INR i * u d + INR j * v d + INR k * w d)%R) ->
  orientation X (mirrored N c) = (- triple u v w)%R /\ orientation X (fun p => let '(i, j, k) := fe_corner p in N c (i + 2 * j + 4 * k)) = triple u v w.
Proof.
  intros N X c o u v w H. unfold orientation, mirrored, fe_corner. cbn [Nat.sub]. unfold triple. split.
  - rewrite !(H 1 0 0), !(H 0 0 0), !(H 1 1 0), !(H 1 0 1) by lia. cbn [INR]. ring.
  - rewrite !(H 1 0 0), !(H 0 0 0), !(H 0 1 0), !(H 0 0 1) by lia. cbn [INR]. ring.
Qed.
Print Assumptions C64_inverted.

(** ---- the hypotheses can be met: two boxes, one cell each ---- *)
Example C64_dump_nonvacuous : forall maps conn sets, ensight (fun x => x) (Solver 2 1 8 maps (cbrick 1 2 3) conn sets) [5; 7]%R (1 / 2)%R 1 [1 / 4; 0; 0]%R =
  Ok (dumps (fun x => x) 12 2 1 brick_n (brick_x 1 2 3) (val [5; 7]%R) 1 [1 / 4; 1 / 2]%R, 2, [1 / 4; 1 / 2; 0]%R).
Proof. intros maps conn sets. apply (C64_dump (fun x => x) (Solver 2 1 8 maps (cbrick 1 2 3) conn sets) brick_n (brick_x 1 2 3)); try reflexivity; [apply cbrick_describes|cbn; lia]. Qed.
Example C64_full_nonvacuous : forall maps conn sets, ensight (fun x => x) (Solver 2 1 8 maps (cbrick 1 2 3) conn sets) [5; 7]%R (1 / 2)%R 250 (repeat 0%R 250) = Err OOB.
Proof. intros maps conn sets. apply (C64_full (fun x => x) (Solver 2 1 8 maps (cbrick 1 2 3) conn sets) brick_n (brick_x 1 2 3)); try reflexivity; apply cbrick_describes. Qed.
Example C64_series_nonvacuous : forall maps conn sets, exists ts, dump_all (fun x => x) (Solver 2 1 8 maps (cbrick 1 2 3) conn sets) (fun i => [INR i; 7]%R) INR 3 (repeat 0%R 250) =
  Ok (map (fun i => dumps (fun x => x) 12 2 1 brick_n (brick_x 1 2 3) (val [INR i; 7]%R) i (map INR (seq 0 (i + 1)))) (seq 0 3), 3, ts).
Proof.
  intros maps conn sets. destruct (C64_series (fun x => x) (Solver 2 1 8 maps (cbrick 1 2 3) conn sets) brick_n (brick_x 1 2 3) (fun i => [INR i; 7]%R) INR 3 (repeat 0%R 250)) as (ts & _ & E); [apply cbrick_describes|reflexivity|reflexivity|rewrite repeat_length; lia|]. exists ts. exact E.
Qed.
Example C64_reread_nonvacuous : exists m' N', parse_mesh (dump_text 12 2 (dumps (fun x => x) 12 2 1 brick_n (brick_x 1 2 3) (fun _ => 0%R) 0 [0%R])) = Ok m' /\ cm_cells m' = 2 /\ cdescribes m' N' (brick_x 1 2 3) /\ N' 1 0 = brick_n 1 1.
Proof.
  destruct (C64_reread (fun x => x) 12 2 1 brick_n (brick_x 1 2 3) (fun _ => 0%R) 0 [0%R]) as (m' & N' & E & _ & E2 & HM & H); [intros c l Hc Hl; apply (proj1 (cbrick_describes 1 2 3) c l Hc Hl)|].
  exists m', N'. split; [exact E|]. split; [exact E2|]. split; [exact HM|]. exact (H 1 0 0 0 ltac:(lia) ltac:(lia) ltac:(lia) ltac:(lia)).
Qed.
Example C64_inverted_nonvacuous : orientation (brick_x 1 2 3) (mirrored brick_n 1) = (-6)%R.
Proof.
  destruct (C64_inverted brick_n (brick_x 1 2 3) 1 (fun d => match d with 0 => 1%R | _ => 0%R end) (fun d => match d with 0 => 1%R | _ => 0%R end) (fun d => match d with 1 => 2%R | _ => 0%R end) (fun d => match d with 2 => 3%R | _ => 0%R end)) as (E & _).
  - intros i j k d Hi Hj Hk Hd. destruct i as [|[|i]], j as [|[|j]], k as [|[|k]], d as [|[|[|d]]]; try lia; cbn; lra.
  - rewrite E. unfold triple. lra.
Qed.
