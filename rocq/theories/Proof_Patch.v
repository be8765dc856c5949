(** Proofs about patch numbering, boundary patches and boundary sets. *)
From Coq Require Import List Arith ZArith Lia Bool Sorted.
Import ListNotations.
Require Import Verif.Base Verif.NatSum Verif.Model_Conn Verif.Spec_Conn Verif.Proof_Conn Verif.Proof_Neigh
  Verif.Model_Patch Verif.Spec_Patch.

(** ---- position of an element in a list ---- *)
Fixpoint pidx (k : nat) (l : list nat) : nat :=
  match l with [] => 0 | h :: t => if h =? k then 0 else S (pidx k t) end.

Lemma pidx_lt k l : In k l -> pidx k l < length l.
Proof.
  induction l as [|h t IH]; simpl; [tauto|]. intros H. destruct (Nat.eqb_spec h k); [lia|].
  destruct H; [congruence|]. specialize (IH H). lia.
Qed.
Lemma pidx_nth k l : In k l -> nth (pidx k l) l 0 = k.
Proof.
  induction l as [|h t IH]; simpl; [tauto|]. intros H. destruct (Nat.eqb_spec h k); [assumption|].
  destruct H; [congruence|]. apply IH. exact H.
Qed.
Lemma pidx_app k l l' : In k l -> pidx k (l ++ l') = pidx k l.
Proof.
  induction l as [|h t IH]; simpl; [tauto|]. intros H. destruct (Nat.eqb_spec h k); [reflexivity|].
  destruct H; [congruence|]. rewrite IH by exact H. reflexivity.
Qed.
Lemma pidx_new k l : ~ In k l -> pidx k (l ++ [k]) = length l.
Proof.
  induction l as [|h t IH]; simpl; intros H; [rewrite Nat.eqb_refl; reflexivity|].
  destruct (Nat.eqb_spec h k); [tauto|]. rewrite IH by tauto. reflexivity.
Qed.
Lemma pidx_of_nth p l : NoDup l -> p < length l -> pidx (nth p l 0) l = p.
Proof.
  intros Nd. revert p. induction Nd as [|h t Hh Nd IH]; intros p Hp; simpl in *; [lia|].
  destruct p as [|p]; [rewrite Nat.eqb_refl; reflexivity|].
  destruct (Nat.eqb_spec h (nth p t 0)) as [E|E].
  - exfalso. apply Hh. rewrite E. apply nth_In. lia.
  - rewrite IH by lia. reflexivity.
Qed.

(** ---- distinct keys in first-seen order ---- *)
Section Keys.
  Variable keys : list nat.
  Definition key (q : nat) : nat := nth q keys 0.
  Fixpoint D (q : nat) : list nat :=
    match q with 0 => [] | S q' => if memb (key q') (D q') then D q' else D q' ++ [key q'] end.

  Lemma D_In q k : In k (D q) <-> exists q', q' < q /\ key q' = k.
  Proof.
    induction q as [|q IH]; cbn [D].
    - split; [intros []|intros (? & ? & _); lia].
    - destruct (memb (key q) (D q)) eqn:E.
      + rewrite IH. split; intros (q' & H1 & H2).
        * exists q'. split; [lia|exact H2].
        * destruct (Nat.eq_dec q' q) as [->|Ne]; [|exists q'; split; [lia|exact H2]].
          apply memb_In in E. rewrite H2 in E. apply IH. exact E.
      + rewrite in_app_iff, IH. simpl. split.
        * intros [(q' & H1 & H2)|[H|[]]]; [exists q'|exists q]; split; auto; lia.
        * intros (q' & H1 & H2). destruct (Nat.eq_dec q' q) as [->|Ne]; [right; left; exact H2|].
          left. exists q'. split; [lia|exact H2].
  Qed.

  Lemma D_NoDup q : NoDup (D q).
  Proof.
    induction q as [|q IH]; cbn [D]; [constructor|].
    destruct (memb (key q) (D q)) eqn:E; [exact IH|].
    apply NoDup_rev in IH. rewrite <- (rev_involutive (D q ++ [key q])). apply NoDup_rev.
    rewrite rev_app_distr. simpl. constructor; [|exact IH]. rewrite <- in_rev. intros H.
    apply memb_In in H. congruence.
  Qed.

  Lemma D_prefix q q' : q <= q' -> exists l, D q' = D q ++ l.
  Proof.
    intros H. induction H as [|m H (l & IH)]; [exists []; rewrite app_nil_r; reflexivity|].
    cbn [D]. rewrite IH. destruct (memb (key m) (D q ++ l)); [exists l; reflexivity|].
    exists (l ++ [key m]). rewrite app_assoc. reflexivity.
  Qed.

  Lemma first_iff q : first_with_key keys q = true <-> ~ In (key q) (D q).
  Proof.
    unfold first_with_key. rewrite forallb_forall, D_In. split.
    - intros H (q' & H1 & H2). specialize (H q'). rewrite in_seq in H.
      destruct (Nat.eqb_spec (nth q' keys 0) (nth q keys 0)) as [E|E]; [|apply E; exact H2].
      simpl in H. specialize (H ltac:(lia)). discriminate.
    - intros H q' Hq. apply in_seq in Hq. destruct (Nat.eqb_spec (nth q' keys 0) (nth q keys 0)) as [E|E]; [|reflexivity].
      exfalso. apply H. exists q'. split; [lia|exact E].
  Qed.

  Lemma D_length q : length (D q) = firsts_before keys q.
  Proof.
    unfold firsts_before. fold (poss q (first_with_key keys)).
    induction q as [|q IH]; [reflexivity|]. rewrite poss_S, app_length, <- IH. cbn [D].
    destruct (memb (key q) (D q)) eqn:E.
    - destruct (first_with_key keys q) eqn:F; [|simpl; lia].
      apply first_iff in F. apply memb_In in E. contradiction.
    - destruct (first_with_key keys q) eqn:F; [rewrite app_length; reflexivity|].
      exfalso. assert (T : first_with_key keys q = true); [|congruence]. apply first_iff.
      intros I. apply memb_In in I. congruence.
  Qed.

  Variable n : nat.
  Hypothesis Hn : length keys = n.
  Definition pid (q : nat) : nat := pidx (key q) (D n).
  Definition P : nat := length (D n).

  Lemma pid_lt q : q < n -> pid q < P.
  Proof. intros H. apply pidx_lt, D_In. exists q. auto. Qed.
  Lemma pid_eq q q' : q < n -> q' < n -> (pid q = pid q' <-> key q = key q').
  Proof.
    intros H H'. split; [|intros E; unfold pid; rewrite E; reflexivity].
    intros E. rewrite <- (pidx_nth (key q) (D n)), <- (pidx_nth (key q') (D n)).
    - fold (pid q) (pid q'). rewrite E. reflexivity.
    - apply D_In. exists q'. auto.
    - apply D_In. exists q. auto.
  Qed.
  Lemma pid_surj p : p < P -> exists q, q < n /\ pid q = p.
  Proof.
    intros Hp. assert (I : In (nth p (D n) 0) (D n)) by (apply nth_In; exact Hp).
    apply D_In in I. destruct I as (q & Hq & E). exists q. split; [exact Hq|]. unfold pid. rewrite E.
    apply pidx_of_nth; [apply D_NoDup|exact Hp].
  Qed.
  Lemma pid_first q : q < n -> first_with_key keys q = true -> pid q = firsts_before keys q.
  Proof.
    intros Hq F. apply first_iff in F. rewrite <- D_length.
    destruct (D_prefix (S q) n ltac:(lia)) as (l & E). unfold pid. rewrite E. cbn [D].
    destruct (memb (key q) (D q)) eqn:Em; [apply memb_In in Em; contradiction|].
    rewrite pidx_app by (apply in_or_app; right; left; reflexivity). apply pidx_new. exact F.
  Qed.

  (** ---- hash table ---- *)
  Lemma max_key_ge k : In k keys -> k <= max_key keys.
  Proof.
    unfold max_key. assert (G : forall l a, a <= fold_left Nat.max l a /\ forall x, In x l -> x <= fold_left Nat.max l a).
    { induction l as [|h t IH]; intros a; simpl; [split; [lia|tauto]|].
      destruct (IH (Nat.max a h)) as (I1 & I2). split; [lia|]. intros x [->|H]; [lia|auto]. }
    intros H. apply (proj2 (G keys 0)). exact H.
  Qed.

  Definition tab (q : nat) (T : list (option Z)) : Prop :=
    length T = max_key keys + 10 /\
    forall k, In k keys -> nth k T None = Some (if memb k (D q) then Z.of_nat (pidx k (D q)) else (-1)%Z).

  Lemma init_table_ok : exists T, init_table keys = Ok T /\ tab 0 T.
  Proof.
    unfold init_table.
    destruct (iter_inv (fun pre T => length T = max_key keys + 10 /\ forall k, In k pre -> nth k T None = Some (-1)%Z)
      keys (fun k t => set t k (Some (-1)%Z)) (repeat None (max_key keys + 10))) as (T & E & H1 & H2).
    - rewrite repeat_length. split; [reflexivity|intros k []].
    - intros pre a post T Ek (H1 & H2). assert (Ha : a <= max_key keys) by (apply max_key_ge; rewrite Ek; apply in_elt).
      rewrite set_ok by lia. eexists. split; [reflexivity|]. rewrite upd_length. split; [exact H1|].
      intros k Hk. rewrite nth_upd by lia. destruct (Nat.eqb_spec k a) as [->|Ne]; [reflexivity|].
      apply in_app_or in Hk. destruct Hk as [Hk|[Hk|[]]]; [auto|congruence].
    - exists T. split; [exact E|]. split; [exact H1|]. intros k Hk. cbn [D]. apply H2. exact Hk.
  Qed.

  Lemma key_In q : q < n -> In (key q) keys.
  Proof. intros H. apply nth_In. lia. Qed.

  Lemma number_ok nc T : n = nc * 6 -> tab 0 T ->
    exists T', number_patches nc keys T = Ok (T', P) /\ tab n T'.
  Proof.
    intros Enc H0. unfold number_patches.
    rewrite (loop_nested nc 6 (fun c s '(t, gid) => do k <- get keys (c * 6 + s); do v <- getu t k;
       if Z.eqb v (-1) then do t' <- set t k (Some (Z.of_nat gid)); Ok (t', gid + 1) else Ok (t, gid))).
    edestruct (loop_inv (fun q st => tab q (fst st) /\ snd st = length (D q)) (nc * 6)) as ((T' & g) & E & H1 & H2).
    3: { exists T'. rewrite E. cbn [fst snd] in *. rewrite <- Enc in *. subst g. split; [reflexivity|exact H1]. }
    - cbn [fst snd]. split; [exact H0|reflexivity].
    - intros q (T1 & g) Hq ((A1 & A2) & A3). cbn [fst snd] in *.
      destruct (divmod_pos q 6 nc Hq) as (_ & _ & E). rewrite E.
      rewrite (get_ok keys q 0) by lia. fold (key q). cbn [bind].
      assert (I := key_In q ltac:(lia)). assert (B := max_key_ge _ I).
      unfold getu. rewrite (nth_error_nth' T1 None) by lia. rewrite A2 by exact I. cbn [bind].
      destruct (memb (key q) (D q)) eqn:Em.
      + destruct (Z.eqb_spec (Z.of_nat (pidx (key q) (D q))) (-1)); [lia|].
        eexists. split; [reflexivity|]. unfold tab. cbn [fst snd D]. rewrite Em. split; [split; [exact A1|exact A2]|exact A3].
      + rewrite Z.eqb_refl. rewrite set_ok by lia. cbn [bind]. eexists. split; [reflexivity|].
        unfold tab. cbn [fst snd D]. rewrite Em. split; [|rewrite app_length; simpl; lia].
        assert (Nin : ~ In (key q) (D q)) by (intros H; apply memb_In in H; congruence).
        split; [rewrite upd_length; exact A1|]. intros k Hk. rewrite nth_upd by lia.
        destruct (Nat.eqb_spec k (key q)) as [->|Ne].
        * replace (memb (key q) (D q ++ [key q])) with true.
          -- rewrite pidx_new by exact Nin. rewrite A3. reflexivity.
          -- symmetry. apply memb_In. apply in_or_app. right. left. reflexivity.
        * rewrite A2 by exact Hk. destruct (memb k (D q)) eqn:Ek.
          -- apply memb_In in Ek. rewrite pidx_app by exact Ek.
             replace (memb k (D q ++ [key q])) with true; [reflexivity|].
             symmetry. apply memb_In. apply in_or_app. left. exact Ek.
          -- replace (memb k (D q ++ [key q])) with false; [reflexivity|]. symmetry.
             destruct (memb k (D q ++ [key q])) eqn:Ek2; [|reflexivity]. apply memb_In in Ek2.
             apply in_app_or in Ek2. destruct Ek2 as [H|[H|[]]]; [apply memb_In in H; congruence|congruence].
  Qed.

  Lemma tab_pid T q : tab n T -> q < n -> getu T (key q) = Ok (Z.of_nat (pid q)).
  Proof.
    intros (A1 & A2) Hq. assert (I := key_In q Hq). assert (B := max_key_ge _ I).
    unfold getu. rewrite (nth_error_nth' T None) by lia. rewrite A2 by exact I.
    replace (memb (key q) (D n)) with true; [reflexivity|]. symmetry. apply memb_In, D_In. exists q. auto.
  Qed.
End Keys.

(** ---- node ids of a side ---- *)
Definition pnode (nodes : list nat) (c s k : nat) : nat := nth (c * 8 + nth (k + s * 4) patch_node_table 0) nodes 0.

Lemma node_in_patch_ok nc nn nodes c s k : mesh_ok 8 nc nn nodes -> c < nc -> s < 6 -> k < 4 ->
  node_in_patch_in_cell nodes c s k = Ok (pnode nodes c s k).
Proof.
  intros (L & _) Hc Hs Hk. unfold node_in_patch_in_cell, pnode.
  rewrite (get_ok patch_node_table _ 0) by (change (length patch_node_table) with 24; lia). cbn [bind].
  apply get_ok.
  assert (nth (k + s * 4) patch_node_table 0 < 8).
  { assert (F : Forall (fun x => x < 8) patch_node_table) by (unfold patch_node_table; repeat constructor).
    rewrite Forall_forall in F. apply F. apply nth_In. change (length patch_node_table) with 24. lia. }
  lia.
Qed.

Lemma these_nodes_ok nc nn nodes c s : mesh_ok 8 nc nn nodes -> c < nc -> s < 6 ->
  these_nodes nodes c s = Ok (map (pnode nodes c s) [0;1;2;3]).
Proof.
  intros M Hc Hs. unfold these_nodes, loop. cbn [loop_from].
  rewrite !(node_in_patch_ok nc nn) by (assumption || lia). reflexivity.
Qed.

Lemma save_nodes_ok lst a (f : nat -> nat) : a + 4 <= length lst ->
  exists lst', save_patch_nodes lst a (map f [0;1;2;3]) = Ok lst' /\ length lst' = length lst /\
    (forall k, k < 4 -> nth (a + k) lst' (-1)%Z = Z.of_nat (f k)) /\
    (forall j, j < a \/ a + 4 <= j -> nth j lst' (-1)%Z = nth j lst (-1)%Z).
Proof.
  intros H. unfold save_patch_nodes.
  edestruct (loop_inv (fun i l => length l = length lst /\ (forall k, k < i -> nth (a + k) l (-1)%Z = Z.of_nat (f k)) /\
     (forall j, j < a \/ a + 4 <= j -> nth j l (-1)%Z = nth j lst (-1)%Z)) 4) as (l & E & H1 & H2 & H3).
  3: { exists l. split; [exact E|]. auto. }
  - split; [reflexivity|]. split; [intros; lia|reflexivity].
  - intros k l Hk (H1 & H2 & H3). rewrite (get_ok _ k 0) by (simpl; lia). cbn [bind].
    rewrite set_ok by lia. eexists. split; [reflexivity|]. rewrite upd_length. split; [exact H1|]. split.
    + intros k' Hk'. rewrite nth_upd by lia. destruct (Nat.eqb_spec (a + k') (a + k)) as [E|E].
      * assert (k' = k) by lia. subst k'. do 4 (destruct k as [|k]; [reflexivity|]). lia.
      * apply H2. lia.
    + intros j Hj. rewrite nth_upd_neq by lia. apply H3. exact Hj.
Qed.

(** ---- the second sweep ---- *)
Definition ohd (val : nat -> Z) (O : list nat) : Z := match O with [] => (-1)%Z | a :: _ => val a end.
Definition osnd (val : nat -> Z) (O : list nat) : Z := match O with _ :: (_ :: _) => val (last O 0) | _ => (-1)%Z end.

Lemma ohd_app val O q : ohd val (O ++ [q]) = match O with [] => val q | _ => ohd val O end.
Proof. destruct O; reflexivity. Qed.
Lemma osnd_app val O q : osnd val (O ++ [q]) = match O with [] => (-1)%Z | _ => val q end.
Proof.
  destruct O as [|a O]; [reflexivity|]. unfold osnd. cbn [app].
  destruct (O ++ [q]) as [|b t] eqn:E; [destruct O; discriminate|]. rewrite <- E.
  change (a :: O ++ [q]) with ((a :: O) ++ [q]). rewrite last_last. reflexivity.
Qed.

Section Sweep.
  Variables (keys nodes : list nat) (nc nn : nat).
  Hypotheses (Lk : length keys = nc * 6) (M : mesh_ok 8 nc nn nodes).
  Notation n := (nc * 6).
  Notation pd := (pid keys n).
  Notation NP := (P keys n).
  Definition own (q p : nat) : list nat := poss q (fun q' => pd q' =? p).

  Lemma own_S q p : own (S q) p = own q p ++ (if pd q =? p then [q] else []).
  Proof. unfold own. rewrite poss_S. reflexivity. Qed.

  Definition nodeval (q k : nat) : nat := pnode nodes (q / 6) (q mod 6) k.

  Definition sweep (q : nat) (st : list Z * list Z * list Z * list (option Z) * list (option nat) * nat) : Prop :=
    let '(cells, sides, pnodes, incell, sidecell, side) := st in
    length cells = 2 * NP /\ length sides = 2 * NP /\ length pnodes = 4 * NP /\
    length incell = n /\ length sidecell = n /\ side = q /\
    (forall p, p < NP -> nth (p * 2) cells (-1)%Z = ohd (fun q => Z.of_nat (q / 6)) (own q p) /\
       nth (p * 2 + 1) cells (-1)%Z = osnd (fun q => Z.of_nat (q / 6)) (own q p) /\
       nth (p * 2) sides (-1)%Z = ohd Z.of_nat (own q p) /\
       nth (p * 2 + 1) sides (-1)%Z = osnd Z.of_nat (own q p) /\
       forall k, k < 4 -> nth (p * 4 + k) pnodes (-1)%Z = ohd (fun q => Z.of_nat (nodeval q k)) (own q p)) /\
    (forall q', q' < q -> nth q' incell None = Some (Z.of_nat (pd q')) /\ nth q' sidecell None = Some q').

  Lemma sweep_step T q st : tab keys n T -> q < n -> sweep q st ->
    exists st', patch_step keys nodes T (q / 6) (q mod 6) st = Ok st' /\ sweep (S q) st'.
  Proof.
    intros HT Hq HS. destruct st as (((((cells & sides) & pnodes) & incell) & sidecell) & side).
    destruct HS as (L1 & L2 & L3 & L4 & L5 & -> & H & Hc).
    destruct (divmod_pos q 6 nc Hq) as (B1 & B2 & E). unfold patch_step. rewrite E.
    rewrite (get_ok keys q 0) by lia. fold (key keys q). cbn [bind].
    rewrite (tab_pid keys n Lk T q HT Hq). cbn [bind].
    rewrite !set_ok by lia. cbn [bind].
    rewrite (these_nodes_ok nc nn nodes _ _ M B1 B2). cbn [bind].
    destruct (Z.ltb_spec (Z.of_nat (pd q)) 0); [lia|]. rewrite Nat2Z.id.
    assert (Hp := pid_lt keys n q Hq). set (p := pd q) in *.
    rewrite (get_ok cells _ (-1)%Z) by lia. cbn [bind].
    destruct (H p Hp) as (C1 & C2 & C3 & C4 & C5). rewrite C1.
    assert (Hin : forall q', q' < S q -> nth q' (upd incell q (Some (Z.of_nat p))) None = Some (Z.of_nat (pd q')) /\
                     nth q' (upd sidecell q (Some q)) None = Some q').
    { intros q' Hq'. rewrite !nth_upd by lia. destruct (Nat.eqb_spec q' q) as [->|Ne]; [split; reflexivity|]. apply Hc. lia. }
    destruct (own q p) as [|a O] eqn:Eo.
    - cbn [ohd]. rewrite Z.eqb_refl. rewrite !set_ok by lia. cbn [bind].
      destruct (save_nodes_ok pnodes (p * 4) (pnode nodes (q / 6) (q mod 6)) ltac:(lia)) as (pn' & E1 & N1 & N2 & N3).
      rewrite E1. cbn [bind]. eexists. split; [reflexivity|]. cbv beta iota delta [sweep].
      rewrite !upd_length, N1. repeat (split; [lia|]). split; [|exact Hin].
      intros p' Hp'. rewrite own_S. fold p. destruct (Nat.eqb_spec p p') as [<-|Ne].
      + rewrite Eo. cbn [app ohd osnd] in *. rewrite !nth_upd_eq by lia. rewrite !nth_upd_neq by lia.
        repeat (split; [auto|]). intros k Hk. apply N2. exact Hk.
      + rewrite app_nil_r. rewrite !nth_upd_neq by lia. destruct (H p' Hp') as (G1 & G2 & G3 & G4 & G5).
        repeat (split; [auto|]). intros k Hk. rewrite N3 by lia. apply G5. exact Hk.
    - cbn [ohd]. destruct (Z.eqb_spec (Z.of_nat (a / 6)) (-1)); [lia|].
      rewrite !set_ok by lia. cbn [bind].
      eexists. split; [reflexivity|]. cbv beta iota delta [sweep].
      rewrite !upd_length. repeat (split; [lia|]). split; [|exact Hin].
      intros p' Hp'. rewrite own_S. fold p. destruct (Nat.eqb_spec p p') as [<-|Ne].
      + rewrite Eo. rewrite !ohd_app, !osnd_app. rewrite !nth_upd_eq by lia. rewrite !nth_upd_neq by lia.
        repeat (split; [auto|]). intros k Hk. rewrite ohd_app. apply C5. exact Hk.
      + rewrite app_nil_r. rewrite !nth_upd_neq by lia. apply (H p' Hp').
  Qed.

  Lemma build_patches_ok : exists m, build_patches nc keys nodes = Ok m /\ pt_num m = NP /\
    sweep n (pt_cells m, pt_sides m, pt_nodes m, pt_in_cell m, pt_side_in_cell m, pt_nsides m).
  Proof.
    unfold build_patches. destruct (init_table_ok keys n Lk) as (T0 & E0 & H0). rewrite E0. cbn [bind].
    destruct (number_ok keys n Lk nc T0 eq_refl H0) as (T & E1 & H1). rewrite E1. cbn [bind].
    rewrite (loop_nested nc 6 (patch_step keys nodes T)).
    edestruct (loop_inv sweep n) as ((((((cells & sides) & pnodes) & incell) & sidecell) & side) & E & HS).
    3: { rewrite E. cbn [bind]. eexists. split; [reflexivity|]. split; [reflexivity|exact HS]. }
    - cbv beta iota delta [sweep]. rewrite !repeat_length. repeat (split; [reflexivity|]).
      split; [|intros; lia]. intros p Hp. rewrite !nth_repeat. cbn [own poss]. simpl.
      repeat split. intros k Hk. apply nth_repeat.
    - intros q st Hq. apply (sweep_step T q st H1 Hq).
  Qed.
End Sweep.
