(** Property C69: element_selector hands out the element that was asked for. *)
From Coq Require Import List Reals Arith Lia Lra.
Require Import Verif.Base Verif.RSum Verif.Model_Shape Verif.Spec_Shape Verif.Prop_Shape Verif.Model_Select Verif.Spec_Select.
Import ListNotations.
Local Open Scope nat_scope.

Lemma ref_len E : length (e_ref E) = e_nv E * e_dim E.
Proof. destruct E; reflexivity. Qed.
Lemma serves_class E : serves (Some E) (e_dim E) (e_nv E) (refc E).
Proof.
  destruct (C44_basis E) as (N & B & U & L & D). exists N.
  split; [destruct E; reflexivity|]. split; [destruct E; reflexivity|]. split; [exact B|]. split; [exact U|]. split; [exact L|]. split; [exact D|]. split.
  - intros Hn x vs xp Lv Lx. apply C44_position; try assumption. intros ->. apply Hn. reflexivity.
  - intros d x out Hd H0 Lo. apply C45_partials; try assumption. intros Hz. destruct (H0 Hz) as (A1 & A2). split; intros ->; [apply A1|apply A2]; reflexivity.
Qed.
Lemma locs_class E v d : v < e_nv E -> d < e_dim E -> p_ref_locs (Some E) v d = Ok (refc E v d).
Proof.
  intros Hv Hd. unfold p_ref_locs, refc. cbn [deref bind]. unfold get.
  assert (v * e_dim E + d < length (e_ref E)) by (rewrite ref_len; nia).
  destruct (nth_error (e_ref E) (v * e_dim E + d)) eqn:Q; [|apply nth_error_None in Q; lia].
  rewrite (nth_error_nth _ _ _ Q). reflexivity.
Qed.

Lemma choose_all_app f h1 h2 p : choose_all f (h1 ++ h2) p = choose_all f h2 (choose_all f h1 p).
Proof. apply fold_left_app. Qed.
Lemma choose_all_keep f (P : elem_type -> Prop) : (forall t q, P t -> f t q = q) -> forall h q, (forall s, In s h -> P s) -> choose_all f h q = q.
Proof.
  intros H. induction h as [|t h IH]; intros q G; [reflexivity|]. cbn. rewrite H by (apply G; left; reflexivity). apply IH. intros s Hs. apply G. right. exact Hs.
Qed.

(** After any history of selections the pointer serves the last type that is not HexN (QuadN); the result does not depend
    on what the pointer held before. Asking for a type of the other dimension gives the 8-node hexahedron (4-node quadrilateral). *)
Theorem C69_choose_3D : forall h t p, last_but (fun s => s = T_HexN) h t ->
  (forall nv, named t = Some (3, nv) -> exists P, serves (choose_all choose_3Delem_type h p) 3 nv P /\
     forall v d, v < nv -> d < 3 -> p_ref_locs (choose_all choose_3Delem_type h p) v d = Ok (P v d)) /\
  ((forall nv, named t <> Some (3, nv)) -> exists P, serves (choose_all choose_3Delem_type h p) 3 8 P /\
     forall v d, v < 8 -> d < 3 -> p_ref_locs (choose_all choose_3Delem_type h p) v d = Ok (P v d)).
Proof.
  intros h t p (h1 & h2 & -> & Ht & H2).
  assert (E : choose_all choose_3Delem_type (h1 ++ t :: h2) p = choose_3Delem_type t (choose_all choose_3Delem_type h1 p)).
  { change (t :: h2) with ([t] ++ h2). rewrite app_assoc, choose_all_app.
    rewrite (choose_all_keep choose_3Delem_type (fun s => s = T_HexN)); [|intros s q ->; reflexivity|exact H2].
    rewrite choose_all_app. reflexivity. }
  rewrite E. split.
  - intros nv Hn. destruct t; try discriminate; injection Hn as <-; cbn [choose_3Delem_type];
      match goal with |- context [Some ?K] => exists (refc K); split; [exact (serves_class K)|exact (locs_class K)] end.
  - intros Hn. destruct t; try (exfalso; eapply Hn; reflexivity); try (exfalso; apply Ht; reflexivity); exists (refc Hex8); (split; [exact (serves_class Hex8)|exact (locs_class Hex8)]).
Qed.
Print Assumptions C69_choose_3D.

Theorem C69_choose_2D : forall h t p, last_but (fun s => s = T_QuadN) h t ->
  (forall nv, named t = Some (2, nv) -> exists P, serves (choose_all choose_2Delem_type h p) 2 nv P) /\
  ((forall nv, named t <> Some (2, nv)) -> exists P, serves (choose_all choose_2Delem_type h p) 2 4 P).
Proof.
  intros h t p (h1 & h2 & -> & Ht & H2).
  assert (E : choose_all choose_2Delem_type (h1 ++ t :: h2) p = choose_2Delem_type t (choose_all choose_2Delem_type h1 p)).
  { change (t :: h2) with ([t] ++ h2). rewrite app_assoc, choose_all_app.
    rewrite (choose_all_keep choose_2Delem_type (fun s => s = T_QuadN)); [|intros s q ->; reflexivity|exact H2].
    rewrite choose_all_app. reflexivity. }
  rewrite E. split.
  - intros nv Hn. destruct t; try discriminate; injection Hn as <-; cbn [choose_2Delem_type];
      match goal with |- context [Some ?K] => exists (refc K); exact (serves_class K) end.
  - intros Hn. destruct t; try (exfalso; eapply Hn; reflexivity); try (exfalso; apply Ht; reflexivity); exists (refc Quad4); exact (serves_class Quad4).
Qed.
Print Assumptions C69_choose_2D.

(** HexN / QuadN leave the pointer as it was: an unset pointer stays unusable, and after HexN the previously chosen
    element goes on being served *)
Theorem C69_order_N : forall h,
  ((forall s, In s h -> s = T_HexN) -> unusable (choose_all choose_3Delem_type h None) /\
     forall p, choose_all choose_3Delem_type h p = p) /\
  ((forall s, In s h -> s = T_QuadN) -> unusable (choose_all choose_2Delem_type h None) /\
     forall p, choose_all choose_2Delem_type h p = p).
Proof.
  assert (U : unusable None) by (repeat split).
  intros h. split; intros H.
  - assert (K : forall p, choose_all choose_3Delem_type h p = p).
    { intros p. apply (choose_all_keep choose_3Delem_type (fun s => s = T_HexN)); [intros s q ->; reflexivity|exact H]. }
    split; [rewrite K; exact U|exact K].
  - assert (K : forall p, choose_all choose_2Delem_type h p = p).
    { intros p. apply (choose_all_keep choose_2Delem_type (fun s => s = T_QuadN)); [intros s q ->; reflexivity|exact H]. }
    split; [rewrite K; exact U|exact K].
Qed.
Print Assumptions C69_order_N.

(** num_nodes() counts vertices, while vert_node_map numbers the nodes of a finer grid: for every selectable element
    some vertex is mapped to a node number that is not below num_nodes() *)
Theorem C69_num_nodes : forall t dim nv, named t = Some (dim, nv) ->
  let p := if dim =? 3 then choose_3Delem_type t None else choose_2Delem_type t None in
  p_num_nodes p = Ok nv /\ exists v g, v < nv /\ p_vert_node_map p v = Ok g /\ nv <= g.
Proof.
  intros t dim nv H. destruct t; try discriminate; injection H as <- <-; cbn [Nat.eqb choose_3Delem_type choose_2Delem_type]; (split; [reflexivity|]).
  1,4: (exists 2, 6; repeat split; cbn; lia) || (exists 4, 18; repeat split; cbn; lia).
  - exists 2, 24. repeat split; cbn; lia.
  - exists 2, 48. repeat split; cbn; lia.
  - exists 2, 24. repeat split; cbn; lia.
  - exists 2, 48. repeat split; cbn; lia.
Qed.
Print Assumptions C69_num_nodes.

Example C69_nonvacuous : last_but (fun s => s = T_HexN) [T_Hex8; T_Hex20; T_HexN; T_HexN] T_Hex20 /\ named T_Hex20 = Some (3, 20) /\
  exists out, p_basis (choose_all choose_3Delem_type [T_Hex8; T_Hex20; T_HexN; T_HexN] None) (pt 3 (fun _ => 1%R)) (repeat None 20) = Ok out.
Proof.
  assert (L : last_but (fun s => s = T_HexN) [T_Hex8; T_Hex20; T_HexN; T_HexN] T_Hex20).
  { exists [T_Hex8], [T_HexN; T_HexN]. split; [reflexivity|]. split; [discriminate|]. intros s [<-|[<-|[]]]; reflexivity. }
  split; [exact L|]. split; [reflexivity|].
  destruct (C69_choose_3D _ _ None L) as (K & _). destruct (K 20 eq_refl) as (P & (N & _ & _ & B & _) & _).
  destruct (B (fun _ => 1%R) (repeat None 20)) as (o & Q & _); [rewrite repeat_length; lia|]. exists o. exact Q.
Qed.
