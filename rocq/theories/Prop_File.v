(** C63: reading a mesh file (examples/average/test/average.cpp:355-509), in particular one written by the
    box mesh creator. *)
From Coq Require Import Reals List Arith ZArith Lra Lia Sorted Bool.
Import ListNotations.
Require Import Verif.Base Verif.RBase Verif.NatSum Verif.Spec_Quad Verif.Spec_Patch Verif.Spec_High Verif.Model_Ref Verif.Model_Refine Verif.Model_Full Verif.Spec_Full Verif.Proof_Full Verif.Proof_Full2 Verif.Proof_Full3 Verif.Proof_Full4 Verif.Prop_Full Verif.Prop_Full2
  Verif.Model_Box Verif.Spec_Box Verif.Proof_Box Verif.Prop_Box Verif.Model_Conn Verif.Model_Average Verif.Model_File Verif.Spec_File Verif.Proof_File Verif.Proof_File2 Verif.Proof_File3 Verif.Model_Patch.
Local Open Scope nat_scope.

(** a file that lists a mesh gives that mesh, with the vertices of every hexahedron reordered to i + 2j + 4k, and
    passes it to refine_mesh; the last element must not be degenerate and two elements must share a node *)
Theorem C63_reads : forall p t nn ne X V d, lists_mesh t nn (S ne) X V -> (forall e v, e < S ne -> v < 8 -> V e v < nn) ->
  corner_spacing V X ne d -> (0 < d <= 10 ^ 64)%R -> (exists c c', c < S ne /\ c' < S ne /\ c <> c' /\ touch 8 V c c') ->
  exists m N, cm_nodes m = nn /\ cm_cells m = S ne /\ cdescribes m N X /\ same_corners (S ne) V N /\
    read_mesh p t = (do rc <- refine_mesh p m; Ok (m, rc)).
Proof.
  intros p t nn ne X V d HT HV HL Hd (c & c' & Hc & Hc' & Ne & Tc). destruct (lists_parse _ _ _ _ _ HT HV) as (m & E & E1 & E2 & HM).
  exists m, (fun e l => V e (vert l)). split; [exact E1|]. split; [exact E2|]. split; [exact HM|]. split; [apply vert_corners|].
  unfold read_mesh. rewrite E. cbn [bind]. rewrite (init_connectivity_ok m _ X d ne HM E2 (vert_spacing _ _ _ _ HL) Hd); [reflexivity|].
  exists c, c'. repeat (split; [assumption|]). exact (proj1 (vert_touch V c c') Tc).
Qed.
Print Assumptions C63_reads.

(** no two elements share a node (in particular: a single element): the connectivity of the initial mesh reads out of bounds *)
Theorem C63_isolated : forall p t nn ne X V, lists_mesh t nn (S ne) X V -> (forall e v, e < S ne -> v < 8 -> V e v < nn) ->
  (forall c c', c < S ne -> c' < S ne -> c <> c' -> ~ touch 8 V c c') -> read_mesh p t = Err OOB.
Proof.
  intros p t nn ne X V HT HV No. destruct (lists_parse _ _ _ _ _ HT HV) as (m & E & E1 & E2 & HM). unfold read_mesh. rewrite E. cbn [bind].
  rewrite (init_connectivity_isolated m _ X HM); [reflexivity|lia|]. rewrite E2. intros c c' Hc Hc' Ne T. exact (No c c' Hc Hc' Ne (proj2 (vert_touch V c c') T)).
Qed.
Print Assumptions C63_isolated.

(** no elements *)
Theorem C63_no_elements : forall p t nn X V, lists_mesh t nn 0 X V -> read_mesh p t = Err Uninit.
Proof.
  intros p t nn X V HT. destruct (lists_parse _ _ _ _ _ HT) as (m & E & E1 & E2 & HM); [intros; lia|]. unfold read_mesh. rewrite E. cbn [bind].
  assert (Q : init_connectivity m = Ok tt) by (unfold init_connectivity; rewrite E2; reflexivity). rewrite Q. cbn [bind]. rewrite (C61_no_elements p m _ X E2 HM). reflexivity.
Qed.
Print Assumptions C63_no_elements.

(** fewer node numbers than 8 per element (a file of quadrilaterals has 4): unset memory is used as a node number *)
Theorem C63_few_node_numbers : forall p nn xs ne cs, length xs = nn * 3 -> length cs < ne * 8 -> (forall z, In z cs -> (1 <= z)%Z) ->
  read_mesh p (geo_text nn xs ne cs) = Err Uninit.
Proof.
  intros p nn xs ne cs Lx Lc Hp. unfold read_mesh. rewrite parse_short; [reflexivity|lia|exact Lc|]. intros q Hq. apply Hp, nth_In, Hq.
Qed.
Print Assumptions C63_few_node_numbers.

(** a node number below 1 is used as an index before the start of the arrays *)
Theorem C63_bad_node_number : forall p nn xs ne cs k, length xs = nn * 3 -> k < ne * 8 -> k < length cs -> (forall q, q < k -> (1 <= nth q cs 0)%Z) -> (nth k cs 0 < 1)%Z ->
  read_mesh p (geo_text nn xs ne cs) = Err OOB.
Proof. intros p nn xs ne cs k Lx Hk Lc Hp Hn. unfold read_mesh. rewrite (parse_neg nn xs ne cs k); [reflexivity|lia|assumption..]. Qed.
Print Assumptions C63_bad_node_number.

(** fewer coordinates than three per node: no mesh comes out *)
Theorem C63_few_coordinates : forall p nn xs ne cs, length xs < nn * 3 -> ne * 8 <= length cs -> (forall z, In z cs -> (1 <= z <= Z.of_nat nn)%Z) ->
  exists e, read_mesh p (geo_text nn xs ne cs) = Err e.
Proof.
  intros p nn xs ne cs Lx Lc Hp. assert (Pc : forall q, q < ne * 8 -> (1 <= nth q cs 0)%Z) by (intros q Hq; apply Hp, nth_In; lia).
  destruct (parse_ok nn xs ne cs [] ltac:(lia) Lc Pc) as (m & E & E1 & E2 & H1 & H2). rewrite app_nil_r in E. unfold read_mesh. rewrite E. cbn [bind].
  assert (U : exists n d, n < cm_nodes m /\ d < 3 /\ cm_coord m n d = Err Uninit).
  { assert (nn <> 0) by (destruct nn; lia). set (q := length xs). assert (Qd : q / nn < 3) by (apply Nat.div_lt_upper_bound; lia). assert (Qm : q mod nn < nn) by (apply Nat.mod_upper_bound; assumption).
    exists (q mod nn), (q / nn). split; [lia|]. split; [exact Qd|]. rewrite H1 by assumption. rewrite (Nat.mul_comm (q / nn)), <- Nat.div_mod by assumption. unfold q. rewrite (proj2 (nth_error_None xs (length xs))) by lia. reflexivity. }
  destruct U as (n & d & Hn & Hd & U).
  destruct (init_connectivity m) as [u|e]; [|eexists; reflexivity]. cbn [bind]. unfold refine_mesh, refine_cells. cbv zeta.
  destruct (refine_points p m) as [pts|e]; [|eexists; reflexivity]. cbn [bind]. unfold refine_keys.
  destruct (mesh_box_uninit (10 ^ 16) m n d Hn Hd U) as (e & ->). eexists. reflexivity.
Qed.
Print Assumptions C63_few_coordinates.

(** the file of the box mesh creator lists the points and cells of the box *)
Theorem C63_meshbox_file : forall fmt ni nj nk lx ly lz sx sy sz, 1 <= ni -> 1 <= nj -> 1 <= nk ->
  exists t X V, meshbox_file fmt ni nj nk lx ly lz sx sy sz = Ok t /\ lists_mesh t ((ni + 1) * (nj + 1) * (nk + 1)) (ni * nj * nk) X V /\
    (forall i j k, i <= ni -> j <= nj -> k <= nk -> X (point_of ni nj i j k) 0 = fmt (sx + INR i * lx / INR ni)%R /\
       X (point_of ni nj i j k) 1 = fmt (sy + INR j * ly / INR nj)%R /\ X (point_of ni nj i j k) 2 = fmt (sz + INR k * lz / INR nk)%R) /\
    (forall i j k v, i < ni -> j < nj -> k < nk -> v < 8 -> let '(a, b, c) := fe_corner v in V (cell_of ni nj i j k) v = point_of ni nj (i + a) (j + b) (k + c)).
Proof.
  intros fmt ni nj nk lx ly lz sx sy sz Hi Hj Hk. destruct (meshbox_lists fmt ni nj nk lx ly lz sx sy sz Hi Hj Hk) as (t & X & V & E & H1 & _ & H2 & H3). exists t, X, V. auto.
Qed.
Print Assumptions C63_meshbox_file.

(** a box of at least two cells, written by the box mesh creator, read and refined at order 0 to 5: the result
    is the structured mesh of ns cells per direction and element, with one node at every crossing of lines *)
Theorem C63_meshbox : forall fmt p ni nj nk lx ly lz sx sy sz, let ns := Spec_Full.sub1 p in
  let o := tri3 sx sy sz in let w := tri3 (lx / INR ni)%R (ly / INR nj)%R (lz / INR nk)%R in let A := ni * ns in let B := nj * ns in let C := nk * ns in
  p <= 5 -> 2 <= ni * nj * nk -> exact_coords fmt sx lx ni -> exact_coords fmt sy ly nj -> exact_coords fmt sz lz nk ->
  (0 < lx)%R -> (0 < ly)%R -> (0 < lz)%R -> (exists D, D < 3 /\ (w D <= 7 * INR (Nat.max 1 p))%R) ->
  exists t m r cn node, meshbox_file fmt ni nj nk lx ly lz sx sy sz = Ok t /\ read_mesh p t = Ok (m, (r, cn)) /\ let M := rf_mesh r in
    cm_nodes m = (ni + 1) * (nj + 1) * (nk + 1) /\ cm_cells m = ni * nj * nk /\
    cm_nodes M = (A + 1) * (B + 1) * (C + 1) /\ cm_cells M = A * B * C /\
    (forall a b c, a <= A -> b <= B -> c <= C -> node a b c < cm_nodes M /\ forall d, d < 3 -> cm_coord M (node a b c) d = Ok (line_at p (o d) (w d) (tri3 a b c d))) /\
    (forall v, v < cm_nodes M -> exists a b c, a <= A /\ b <= B /\ c <= C /\ v = node a b c) /\
    (forall a b c a' b' c', a <= A -> b <= B -> c <= C -> a' <= A -> b' <= B -> c' <= C -> node a b c = node a' b' c' -> a = a' /\ b = b' /\ c = c') /\
    (forall i j k x y z l, i < ni -> j < nj -> k < nk -> x < ns -> y < ns -> z < ns -> l < 8 ->
       cm_node M (cell_id p (cell_of ni nj i j k) x y z) l = Ok (node (i * ns + x + corner_coord l 0) (j * ns + y + corner_coord l 1) (k * ns + z + corner_coord l 2))).
Proof.
  intros fmt p ni nj nk lx ly lz sx sy sz ns o w A B C Hp H2 Fx Fy Fz Px Py Pz (D0 & HD0 & Hw0).
  assert (1 <= ni /\ 1 <= nj /\ 1 <= nk) as (Hi & Hj & Hk) by (destruct ni, nj, nk; lia).
  assert (Hw : forall d, d < 3 -> (0 < w d)%R) by (intros d Hd; unfold w; destruct d as [|[|[|d]]]; cbn [tri3]; try lia; apply Rdiv_lt_0_compat; try assumption; apply lt_0_INR; lia).
  assert (HD : exists D, D < 3 /\ (forall d, d < 3 -> (0 < w D <= w d)%R) /\ (w D <= 7 * INR (Nat.max 1 p))%R).
  { assert (Q : exists D, D < 3 /\ forall d, d < 3 -> (w D <= w d)%R).
    { destruct (Rle_dec (w 0) (w 1)), (Rle_dec (w 0) (w 2)), (Rle_dec (w 1) (w 2)); [exists 0|exists 0|exists 2|exists 2|exists 1|exists 1|exists 1|exists 2]; (split; [lia|]); intros [|[|[|d]]] Hd; try lia; lra. }
    destruct Q as (D & HD & Q). exists D. split; [exact HD|]. split; [intros d Hd; split; [apply Hw; exact HD|apply Q; exact Hd]|]. specialize (Q D0 HD0). lra. }
  destruct HD as (D & HD & Hs & Hbig).
  destruct (meshbox_mesh fmt ni nj nk lx ly lz sx sy sz Hi Hj Hk Fx Fy Fz) as (t & m & N & X & Et & Em & Ec & En & HM & HB & HN). fold w o in HB.
  destruct (ni * nj * nk) as [|ne] eqn:Ene; [lia|].
  destruct (box_touch ni nj nk N ltac:(lia) HN) as (e & l & e' & l' & He & Hl & He' & Hl' & Ne & P1 & P2 & Eq). rewrite Ene in He, He'.
  destruct (C61_boxes p ne m N X o w (box_pos ni nj) D Hp HM Ec HB HD Hs Hbig) as (r & cn & nd & CN & CX & pt & Er & H).
  { intros _. exists e, l, e', l'. repeat (split; [assumption|]). intros d Hd. rewrite Eq. reflexivity. }
  cbv zeta in H. fold ns in H. destruct H as (H1 & (HCN & HCX) & H3 & H4 & H5 & H6 & H7 & _).
  set (nn := cm_nodes (rf_mesh r)) in *.
  assert (Hlt : forall g, g < S ne * pts1 p ^ 3 -> nd g < nn) by (intros g Hg; apply (H3 g Hg)).
  assert (Hw' : forall d, d < 3 -> (0 < w d)%R) by exact Hw.
  exists t, m, r, cn, (lat p ni nj nk nd). split; [exact Et|]. split.
  { unfold read_mesh. rewrite Em. cbn [bind]. rewrite (init_connectivity_ok m N X (w D) ne HM Ec).
    - cbn [bind]. rewrite Er. reflexivity.
    - apply (elem_spacing p ne m N X o w (box_pos ni nj) D Hp Ec HB HD Hs). lia.
    - eapply s_small; eassumption.
    - exists e, e'. repeat (split; [assumption|]). exists l, l'. auto. }
  cbv zeta. fold nn. split; [exact En|]. split; [exact Ec|]. split; [|split; [|split; [|split; [|split]]]].
  - apply (lat_count p ni nj nk ne m N X o w nn nd); assumption.
  - rewrite H1, <- Ene. unfold A, B, C. cbn [Nat.pow]. ring.
  - intros a b c Ha Hb Hc. assert (L := lat_lt p ni nj nk ne m nn nd Hp Hi Hj Hk Ene Ec Hlt a b c Ha Hb Hc). split; [exact L|]. intros d Hd. rewrite (HCX _ d L Hd).
    destruct (H4 _ L) as (g & Hg & Eg). destruct (H3 g Hg) as (_ & _ & Q). rewrite <- Eg, (Q d Hd). f_equal.
    apply (lat_coord p ni nj nk ne m N X o w nd) with (a := a) (b := b) (c := c); assumption.
  - intros v Hv. apply (lat_surj p ni nj nk ne m N X o w nn nd); assumption.
  - intros a b c a' b' c'. apply (lat_inj p ni nj nk ne m N X o w nd); assumption.
  - intros i j k x y z q Hi' Hj' Hk' Hx Hy Hz Hq.
    assert (Cl := cell_of_lt ni nj nk i j k Hi' Hj' Hk'). rewrite Ene in Cl.
    assert (Ci : cell_id p (cell_of ni nj i j k) x y z < cm_cells (rf_mesh r)) by (rewrite H1; replace (S ne * ns ^ 3) with (S ne * (ns * ns * ns)) by (cbn [Nat.pow]; ring); apply cell_id_lt; assumption).
    destruct (HCN _ q Ci Hq) as (-> & _). rewrite H7 by assumption. f_equal.
    assert (B0 := corner_bit q 0). assert (B1 := corner_bit q 1). assert (B2 := corner_bit q 2).
    assert (Q := lat_gpt p ni nj nk ne m N X o w nd Hp Hi Hj Hk Ene Ec HB Hw' H5 H6 i j k (x + corner_coord q 0) (y + corner_coord q 1) (z + corner_coord q 2) Hi' Hj' Hk').
    fold ns in Q. rewrite !Nat.add_assoc in Q. rewrite <- Q by lia. f_equal. unfold gpt, corner_pt. f_equal.
    do 8 (destruct q as [|q]; [reflexivity|]). lia.
Qed.
Print Assumptions C63_meshbox.

(** ---- the hypotheses can be met ---- *)

(** two unit cubes side by side, listed by hand, with the spacing 1 *)
Definition two_v (e v : nat) : nat := match v with 0 => e | 1 => 1 + e | 2 => 4 + e | 3 => 3 + e | 4 => 6 + e | 5 => 7 + e | 6 => 10 + e | _ => 9 + e end.
Definition two_x (n d : nat) : R := tri3 (INR (n mod 3)) (INR (n / 3 mod 2)) (INR (n / 6)) d.
Definition two_file : list token :=
  TInt 12 :: flat_map (fun d => map (fun n => TNum (two_x n d)) (seq 0 12)) (seq 0 3) ++ TWord ::
  TInt 2 :: map TInt [1; 2; 5; 4; 7; 8; 11; 10; 2; 3; 6; 5; 8; 9; 12; 11]%Z ++ [TWord].
Example C63_reads_nonvacuous : exists m N, read_mesh 3 two_file = (do rc <- refine_mesh 3 m; Ok (m, rc)) /\ cm_nodes m = 12 /\ cm_cells m = 2 /\ cdescribes m N two_x /\ N 1 7 = 11 /\ N 1 2 = 4.
Proof.
  destruct (C63_reads 3 two_file 12 1 two_x two_v 1) as (m & N & H1 & H2 & H3 & H4 & H5).
  - exists [TWord]. reflexivity.
  - intros e v He Hv. do 8 (destruct v as [|v]; [cbn; lia|]). lia.
  - split.
    + intros a b Ha Hb Ne. rewrite <- sqrt_1 at 1. apply sqrt_le_1_alt. do 8 (destruct a as [|a]; [do 8 (destruct b as [|b]; [try (exfalso; lia); cbn; lra|]); lia|]). lia.
    + exists 0, 1. repeat (split; [lia|]). rewrite <- sqrt_1 at 1. f_equal. cbn. lra.
  - split; [lra|apply pow_R1_Rle; lra].
  - exists 0, 1. repeat (split; [lia|]). exists 1, 0. repeat (split; [lia|]). reflexivity.
  - exists m, N. split; [exact H5|]. split; [exact H1|]. split; [exact H2|]. split; [exact H3|]. split; [exact (H4 1 6 ltac:(lia) ltac:(lia))|exact (H4 1 3 ltac:(lia) ltac:(lia))].
Qed.
(** one cube *)
Example C63_isolated_nonvacuous : read_mesh 1 (geo_text 8 (map (fun q => cube_x (q mod 8) (q / 8)) (seq 0 24)) 1 [1; 2; 4; 3; 5; 6; 8; 7]%Z) = Err OOB.
Proof.
  apply (C63_isolated 1 _ 8 0 cube_x (fun _ v => match v with 2 => 3 | 3 => 2 | 6 => 7 | 7 => 6 | _ => v end)).
  - exists []. reflexivity.
  - intros e v He Hv. do 8 (destruct v as [|v]; [lia|]). lia.
  - intros; lia.
Qed.
Example C63_no_elements_nonvacuous : read_mesh 1 (geo_text 2 [0; 0; 0; 1; 1; 1]%R 0 []) = Err Uninit.
Proof. apply (C63_no_elements 1 _ 2 (fun n d => match n, d with 1, 1 | 0, 2 | 1, 2 => 1%R | _, _ => 0%R end) (fun _ _ => 0)). exists []. reflexivity. Qed.
(** a file with one quadrilateral *)
Example C63_few_node_numbers_nonvacuous : read_mesh 1 (geo_text 4 [0; 1; 1; 0; 0; 0; 1; 1; 0; 0; 0; 0]%R 1 [1; 2; 3; 4]%Z) = Err Uninit.
Proof. apply C63_few_node_numbers; [reflexivity|cbn; lia|]. cbn. intros z [<-|[<-|[<-|[<-|[]]]]]; lia. Qed.
(** numbers that count from 0 *)
Example C63_bad_node_number_nonvacuous : read_mesh 1 (geo_text 8 (map (fun q => cube_x (q mod 8) (q / 8)) (seq 0 24)) 1 [0; 1; 3; 2; 4; 5; 7; 6]%Z) = Err OOB.
Proof. apply (C63_bad_node_number _ _ _ _ _ 0); [reflexivity|lia|cbn; lia|lia|cbn; lia]. Qed.
(** coordinates in the plane only *)
Example C63_few_coordinates_nonvacuous : exists e, read_mesh 1 (geo_text 8 (map (fun q => cube_x (q mod 8) (q / 8)) (seq 0 16)) 1 [1; 2; 4; 3; 5; 6; 8; 7]%Z) = Err e.
Proof. apply C63_few_coordinates; [cbn; lia|cbn; lia|]. cbn. intros z H. repeat (destruct H as [<-|H]; [lia|]). destruct H. Qed.
Example C63_meshbox_file_nonvacuous : exists t X V, meshbox_file (fun x => x) 3 2 2 3 2 2 0 0 0 = Ok t /\ lists_mesh t 36 12 X V /\ X (point_of 3 2 3 1 2) 0 = (0 + INR 3 * 3 / INR 3)%R /\ V (cell_of 3 2 1 1 0) 6 = point_of 3 2 2 2 1.
Proof.
  destruct (C63_meshbox_file (fun x => x) 3 2 2 3 2 2 0 0 0 ltac:(lia) ltac:(lia) ltac:(lia)) as (t & X & V & E & H1 & H2 & H3). exists t, X, V. split; [exact E|]. split; [exact H1|].
  split; [apply (H2 3 1 2); lia|]. exact (H3 1 1 0 6 ltac:(lia) ltac:(lia) ltac:(lia) ltac:(lia)).
Qed.
(** 3 x 2 x 2 unit cubes at order 2: four cells per direction and element *)
Example C63_meshbox_nonvacuous : exists t m r cn, meshbox_file (fun x => x) 3 2 2 3 2 2 0 0 0 = Ok t /\ read_mesh 2 t = Ok (m, (r, cn)) /\ cm_cells m = 12 /\ cm_nodes (rf_mesh r) = 13 * 9 * 9 /\ cm_cells (rf_mesh r) = 12 * 8 * 8.
Proof.
  destruct (C63_meshbox (fun x => x) 2 3 2 2 3 2 2 0 0 0) as (t & m & r & cn & nd & E & H); try lia; try lra; try (intros i _; reflexivity).
  - exists 0. split; [lia|]. cbn. lra.
  - cbv zeta in H. destruct H as (E' & H1 & H2 & H3 & H4 & _). exists t, m, r, cn. auto.
Qed.
