(** Reading a geometry file. *)
From Coq Require Import Reals List Arith ZArith Lra Lia Bool.
Import ListNotations.
Require Import Verif.Base Verif.RBase Verif.NatSum Verif.Model_Full Verif.Spec_Full Verif.Spec_Box Verif.Model_Average Verif.Model_File Verif.Spec_File Verif.Proof_Full2 Verif.Model_Patch.
Local Open Scope nat_scope.

Lemma loop_from_split {S} lo a b (f : nat -> S -> res S) s : loop_from lo (a + b) f s = bind (loop_from lo a f s) (fun s => loop_from (lo + a) b f s).
Proof.
  revert s lo. induction a as [|a IH]; intros s lo; cbn [Nat.add loop_from bind]; [rewrite Nat.add_0_r; reflexivity|].
  destruct (f lo s); cbn [bind]; [|reflexivity]. rewrite IH. replace (Datatypes.S lo + a) with (lo + Datatypes.S a) by lia. reflexivity.
Qed.
Lemma loop_split {S} a b (f : nat -> S -> res S) s : loop (a + b) f s = bind (loop a f s) (fun s => loop_from a b f s).
Proof. unfold loop. apply loop_from_split. Qed.
Lemma loop_from_shift {S} lo n (f : nat -> S -> res S) s : loop_from lo n f s = loop n (fun i => f (lo + i)) s.
Proof.
  unfold loop. replace lo with (lo + 0) at 1 by lia. generalize 0 as k. revert s. induction n as [|n IH]; intros s k; cbn [loop_from]; [reflexivity|].
  destruct (f (lo + k) s); cbn [bind]; [|reflexivity]. rewrite <- IH. f_equal. lia.
Qed.
Lemma loop_succ {S} n (f : nat -> S -> res S) s : loop (Datatypes.S n) f s = bind (loop n f s) (f n).
Proof.
  replace (Datatypes.S n) with (n + 1) by lia. rewrite loop_split. destruct (loop n f s); cbn [bind]; [|reflexivity]. cbn [loop_from]. destruct (f n a); reflexivity.
Qed.
Lemma loop_flat {S} n K (f : nat -> S -> res S) s : loop n (fun c st => loop K (fun l st => f (c * K + l) st) st) s = loop (n * K) f s.
Proof.
  induction n as [|n IH]; [reflexivity|]. rewrite loop_succ, IH. replace (Datatypes.S n * K) with (n * K + K) by lia. rewrite loop_split.
  destruct (loop (n * K) f s); cbn [bind]; [|reflexivity]. rewrite loop_from_shift. reflexivity.
Qed.

Lemma skipn_cons {A} (l : list A) k x : nth_error l k = Some x -> skipn k l = x :: skipn (S k) l.
Proof.
  revert k. induction l as [|y l IH]; intros k H; [destruct k; discriminate|]. destruct k as [|k]; [injection H as ->; reflexivity|]. cbn [skipn]. rewrite (IH k H). reflexivity.
Qed.
Lemma skipn_none {A} (l : list A) k : nth_error l k = None -> skipn k l = [] /\ skipn (S k) l = [].
Proof. intros H. apply nth_error_None in H. split; apply skipn_all2; lia. Qed.

(** coordinates: entry (n, d) is number d*nn + n of the list, or unset if the list is too short *)
Lemma read_coords_ok nn xs t : length xs <= nn * 3 -> (match t with TWord :: _ => True | _ => length xs = nn * 3 end) ->
  exists cs, read_coords (TInt (Z.of_nat nn) :: map TNum xs ++ t) = Ok (nn, cs, t) /\ length cs = nn * 3 /\
    forall n d, n < nn -> d < 3 -> nth_error cs (n * 3 + d) = Some (nth_error xs (d * nn + n)).
Proof.
  intros Hx Ht. unfold read_coords. cbn [scan_int bind]. destruct (Z.ltb_spec (Z.of_nat nn) 0) as [Hz|_]; [lia|]. rewrite Nat2Z.id.
  set (P := fun k (st : list (option R) * list token) => snd st = map TNum (skipn k xs) ++ t /\ length (fst st) = nn * 3 /\
    forall n d, n < nn -> d < 3 -> d * nn + n < k -> nth_error (fst st) (n * 3 + d) = Some (nth_error xs (d * nn + n))).
  set (P' := fun k (st : list (option R) * list token) => P k st /\ forall n d, n < nn -> d < 3 -> k <= d * nn + n -> nth_error (fst st) (n * 3 + d) = Some None).
  edestruct (loop_inv (fun d st => P' (d * nn) st) 3) as (st & -> & Hst).
  3:{ destruct st as [cs t']. cbn [bind]. destruct Hst as ((E & L & H) & _). cbn [fst snd] in *. rewrite skipn_all2 in E by lia. cbn in E. subst t'. exists cs. split; [reflexivity|]. split; [exact L|]. intros n d Hn Hd. apply H; [assumption|assumption|]. nia. }
  - split; [split; [reflexivity|]; split; [apply repeat_length|intros; lia]|]. intros n d Hn Hd _. cbn [fst]. rewrite nth_error_repeat by nia. reflexivity.
  - intros d st Hd Hst. cbn beta.
    edestruct (loop_inv (fun n st => P' (d * nn + n) st) nn) as (st' & -> & Hst').
    3:{ eexists. split; [reflexivity|]. replace (S d * nn) with (d * nn + nn) by lia. exact Hst'. }
    + rewrite Nat.add_0_r. exact Hst.
    + intros n [cs t'] Hn ((E & L & H) & H0). cbn [fst snd] in *. destruct (nth_error xs (d * nn + n)) as [x|] eqn:Ex.
      * rewrite (skipn_cons _ _ _ Ex) in E. cbn [map app] in E. subst t'. cbn [scan_real].
        rewrite set_ok by (rewrite L; nia). cbn [bind]. eexists. split; [reflexivity|].
        assert (Q : forall n' d', n' < nn -> d' < 3 -> nth_error (upd cs (n * 3 + d) (Some x)) (n' * 3 + d') = if Nat.eqb (d' * nn + n') (d * nn + n) then Some (Some x) else nth_error cs (n' * 3 + d')).
        { intros n' d' Hn' Hd'. rewrite !nth_error_nth' with (d := None) by (rewrite ?upd_length, L; nia). rewrite nth_upd by (rewrite L; nia).
          destruct (Nat.eqb_spec (n' * 3 + d') (n * 3 + d)) as [Q|Q].
          - assert (n = n') by lia. assert (d = d') by lia. subst. rewrite Nat.eqb_refl. reflexivity.
          - destruct (Nat.eqb_spec (d' * nn + n') (d * nn + n)); [exfalso|reflexivity]. assert (d = d') by nia. nia. }
        split; [split; [rewrite <- Nat.add_succ_r; rewrite Nat.add_succ_r; reflexivity|]; split; [cbn [fst]; rewrite upd_length; exact L|]|].
        -- intros n' d' Hn' Hd' B. cbn [fst]. rewrite Q by assumption. destruct (Nat.eqb_spec (d' * nn + n') (d * nn + n)) as [Eq|]; [rewrite Eq, Ex; reflexivity|]. apply H; [assumption|assumption|lia].
        -- intros n' d' Hn' Hd' B. cbn [fst]. rewrite Q by assumption. destruct (Nat.eqb_spec (d' * nn + n') (d * nn + n)) as [Eq|]; [lia|]. apply H0; [assumption|assumption|lia].
      * destruct (skipn_none _ _ Ex) as (S1 & S2). rewrite S1 in E. cbn in E. subst t'.
        assert (Lx : length xs <= d * nn + n) by (apply nth_error_None; exact Ex).
        destruct t as [|k t]; [nia|]. destruct k; [nia|nia|]. cbn [scan_real]. eexists. split; [reflexivity|].
        split; [split; [cbn [snd]; rewrite Nat.add_succ_r, S2; reflexivity|]; split; [exact L|]|].
        -- intros n' d' Hn' Hd' B. cbn [fst]. destruct (Nat.eq_dec (d' * nn + n') (d * nn + n)) as [Eq|]; [|apply H; [assumption|assumption|lia]]. rewrite Eq, Ex. apply H0; [assumption|assumption|lia].
        -- intros n' d' Hn' Hd' B. apply H0; [assumption|assumption|lia].
Qed.

Definition read_cell_step (q : nat) (st : list (option nat) * list token) : res (list (option nat) * list token) :=
  let '(conn, t) := st in
  do zt <- scan_int t;
  match zt with
  | (Some z, t) => if Z.ltb z 1 then Err OOB else do conn <- set conn q (Some (Z.to_nat (z - 1))); Ok (conn, t)
  | (None, t) => Err Uninit
  end.
Lemma read_cells_flat ne t : read_cells ne t = (do (conn, _) <- loop (ne * 8) read_cell_step (repeat None (ne * 8), t); Ok conn).
Proof. unfold read_cells. rewrite <- (loop_flat ne 8). reflexivity. Qed.

Lemma read_cells_prefix ne cs t k : k <= ne * 8 -> k <= length cs -> (forall q, q < k -> (1 <= nth q cs 0)%Z) ->
  exists conn, loop k read_cell_step (repeat None (ne * 8), map TInt cs ++ t) = Ok (conn, map TInt (skipn k cs) ++ t) /\ length conn = ne * 8 /\
    forall q, q < k -> nth_error conn q = Some (Some (Z.to_nat (nth q cs 0 - 1)%Z)).
Proof.
  intros Hk Hl Hp.
  edestruct (loop_inv (fun i (st : list (option nat) * list token) => snd st = map TInt (skipn i cs) ++ t /\ length (fst st) = ne * 8 /\
    forall q, q < i -> nth_error (fst st) q = Some (Some (Z.to_nat (nth q cs 0 - 1)%Z))) k) as ([conn t'] & -> & E & L & H).
  3:{ cbn [fst snd] in *. exists conn. subst t'. auto. }
  - split; [reflexivity|]. split; [apply repeat_length|]. intros; lia.
  - intros q [conn t'] Hq (E & L & H). cbn [fst snd] in *. subst t'. unfold read_cell_step.
    assert (Eq : nth_error cs q = Some (nth q cs 0%Z)) by (apply nth_error_nth'; lia).
    rewrite (skipn_cons _ _ _ Eq). cbn [map app scan_int bind]. specialize (Hp q Hq). destruct (Z.ltb_spec (nth q cs 0%Z) 1); [lia|].
    rewrite set_ok by lia. cbn [bind]. eexists. split; [reflexivity|]. cbn [fst snd]. split; [reflexivity|]. split; [rewrite upd_length; exact L|].
    intros q' Hq'. rewrite nth_error_nth' with (d := None) by (rewrite upd_length; lia). rewrite nth_upd by lia. destruct (Nat.eqb_spec q' q) as [->|Ne].
    + reflexivity.
    + rewrite <- (H q') by lia. symmetry. apply nth_error_nth'. lia.
Qed.
Lemma read_cells_ok ne cs t : ne * 8 <= length cs -> (forall q, q < ne * 8 -> (1 <= nth q cs 0)%Z) ->
  exists conn, read_cells ne (map TInt cs ++ t) = Ok conn /\ length conn = ne * 8 /\ forall q, q < ne * 8 -> nth_error conn q = Some (Some (Z.to_nat (nth q cs 0 - 1)%Z)).
Proof.
  intros Hl Hp. destruct (read_cells_prefix ne cs t (ne * 8) (le_n _) Hl Hp) as (conn & E & L & H). exists conn. rewrite read_cells_flat, E. auto.
Qed.
(** the list ends early *)
Lemma read_cells_short ne cs : length cs < ne * 8 -> (forall q, q < length cs -> (1 <= nth q cs 0)%Z) -> read_cells ne (map TInt cs) = Err Uninit.
Proof.
  intros Hl Hp. destruct (read_cells_prefix ne cs [] (length cs) ltac:(lia) (le_n _) Hp) as (conn & E & _). rewrite app_nil_r in E.
  rewrite read_cells_flat. replace (ne * 8) with (length cs + S (ne * 8 - length cs - 1)) by lia. rewrite loop_split. 
  replace (length cs + S (ne * 8 - length cs - 1)) with (ne * 8) by lia. rewrite E. cbn [bind]. rewrite skipn_all2 by lia. cbn [loop_from map app read_cell_step scan_int bind]. reflexivity.
Qed.
(** a number below 1 *)
Lemma read_cells_neg ne cs t k : k < ne * 8 -> k < length cs -> (forall q, q < k -> (1 <= nth q cs 0)%Z) -> (nth k cs 0 < 1)%Z -> read_cells ne (map TInt cs ++ t) = Err OOB.
Proof.
  intros Hk Hl Hp Hn. destruct (read_cells_prefix ne cs t k ltac:(lia) ltac:(lia) Hp) as (conn & E & _).
  rewrite read_cells_flat. replace (ne * 8) with (k + S (ne * 8 - k - 1)) by lia. rewrite loop_split.
  replace (k + S (ne * 8 - k - 1)) with (ne * 8) by lia. rewrite E. cbn [bind]. assert (Eq : nth_error cs k = Some (nth k cs 0%Z)) by (apply nth_error_nth'; lia).
  rewrite (skipn_cons _ _ _ Eq). cbn [loop_from map app read_cell_step scan_int bind]. destruct (Z.ltb_spec (nth k cs 0%Z) 1); [reflexivity|lia].
Qed.

Definition vert (l : nat) : nat := nth l ensight_to_ijk 0.
Lemma vert_lt l : l < 8 -> vert l < 8.
Proof. intros H. do 8 (destruct l as [|l]; [cbn; lia|]). lia. Qed.
Lemma vert_vert l : l < 8 -> vert (vert l) = l.
Proof. intros H. do 8 (destruct l as [|l]; [reflexivity|]). lia. Qed.

Lemma reorder_ok ne conn (F : nat -> nat -> nat) : length conn = ne * 8 -> (forall c l, c < ne -> l < 8 -> getu conn (c * 8 + l) = Ok (F c l)) ->
  exists conn', reorder_cells ne conn = Ok conn' /\ length conn' = ne * 8 /\ forall c l, c < ne -> l < 8 -> getu conn' (c * 8 + l) = Ok (F c (vert l)).
Proof.
  intros L H. unfold reorder_cells.
  edestruct (loop_inv (fun n (s : list (option nat)) => length s = ne * 8 /\ forall c l, c < ne -> l < 8 -> getu s (c * 8 + l) = Ok (F c (if c <? n then vert l else l))) ne) as (s & -> & Ls & Hs).
  3:{ exists s. split; [reflexivity|]. split; [exact Ls|]. intros c l Hc Hl. rewrite Hs by assumption. destruct (Nat.ltb_spec c ne); [reflexivity|lia]. }
  - split; [exact L|]. intros c l Hc Hl. apply H; assumption.
  - intros c s Hc (Ls & Hs).
    edestruct (loop_inv (fun n (tmp : list nat) => tmp = map (fun l => F c (vert l)) (seq 0 n)) 8) as (tmp & -> & ->).
    3:{ cbn [bind].
        edestruct (loop_inv (fun n (s' : list (option nat)) => length s' = ne * 8 /\ forall c' l, c' < ne -> l < 8 -> getu s' (c' * 8 + l) = Ok (F c' (if (c' <? c) || ((c' =? c) && (l <? n)) then vert l else l))) 8) as (s' & -> & Ls' & Hs').
        3:{ eexists. split; [reflexivity|]. split; [exact Ls'|]. intros c' l Hc' Hl. rewrite Hs' by assumption. f_equal. f_equal.
            destruct (Nat.ltb_spec c' c), (Nat.ltb_spec c' (S c)), (Nat.eqb_spec c' c), (Nat.ltb_spec l 8); cbn [orb andb]; try lia; reflexivity. }
        - split; [exact Ls|]. intros c' l Hc' Hl. rewrite Hs by assumption. f_equal. f_equal. destruct (Nat.ltb_spec l 0); [lia|]. rewrite andb_false_r, orb_false_r. reflexivity.
        - intros l s' Hl (Ls' & Hs'). assert (G : get (map (fun l => F c (vert l)) (seq 0 8)) l = Ok (F c (vert l))) by (unfold get; rewrite nth_error_map, nth_error_nth' with (d := 0) by (rewrite seq_length; exact Hl); rewrite seq_nth by exact Hl; reflexivity).
          rewrite G. cbn [bind]. rewrite set_ok by nia. eexists. split; [reflexivity|]. split; [rewrite upd_length; exact Ls'|].
          intros c' l' Hc' Hl'. unfold getu. rewrite nth_error_nth' with (d := None) by (rewrite upd_length; nia). rewrite nth_upd by nia.
          destruct (Nat.eqb_spec (c' * 8 + l') (c * 8 + l)) as [Q|Q].
          + assert (c' = c) by lia. assert (l' = l) by lia. subst. rewrite Nat.eqb_refl. destruct (Nat.ltb_spec l (S l)); [|lia]. cbn [andb]. rewrite orb_true_r. reflexivity.
          + specialize (Hs' c' l' Hc' Hl'). unfold getu in Hs'. rewrite nth_error_nth' with (d := None) in Hs' by nia. rewrite Hs'. f_equal. f_equal.
            destruct (Nat.eqb_spec c' c); [|reflexivity]. destruct (Nat.ltb_spec l' l), (Nat.ltb_spec l' (S l)); try lia; reflexivity. }
    + reflexivity.
    + intros l tmp Hl ->. rewrite (get_ok _ _ 0) by (cbn; lia). cbn [bind]. change (nth l ensight_to_ijk 0) with (vert l). rewrite Hs by (try exact Hc; apply vert_lt; exact Hl).
      destruct (Nat.ltb_spec c c); [lia|]. cbn [bind]. eexists. split; [reflexivity|]. rewrite seq_S, map_app. reflexivity.
Qed.

Lemma parse_ok nn xs ne cs t : length xs <= nn * 3 -> ne * 8 <= length cs -> (forall q, q < ne * 8 -> (1 <= nth q cs 0)%Z) ->
  exists m, parse_mesh (geo_text nn xs ne cs ++ t) = Ok m /\ cm_nodes m = nn /\ cm_cells m = ne /\
    (forall n d, n < nn -> d < 3 -> cm_coord m n d = match nth_error xs (d * nn + n) with Some x => Ok x | None => Err Uninit end) /\
    (forall c l, c < ne -> l < 8 -> cm_node m c l = Ok (Z.to_nat (nth (c * 8 + vert l) cs 0 - 1)%Z)).
Proof.
  intros Hx Hc Hp. unfold geo_text, parse_mesh. cbn [app]. rewrite <- app_assoc. cbn [app].
  destruct (read_coords_ok nn xs (TWord :: TInt (Z.of_nat ne) :: map TInt cs ++ t) Hx I) as (co & -> & Lc & Hco). cbn [bind scan_word scan_int].
  destruct (Z.ltb_spec (Z.of_nat ne) 0); [lia|]. rewrite Nat2Z.id.
  destruct (read_cells_ok ne cs t Hc Hp) as (conn & -> & Ln & Hn). cbn [bind].
  destruct (reorder_ok ne conn (fun c l => Z.to_nat (nth (c * 8 + l) cs 0 - 1)%Z) Ln) as (conn' & -> & Ln' & Hn').
  { intros c l Hc' Hl. unfold getu, get. rewrite Hn by nia. reflexivity. }
  cbn [bind]. eexists. split; [reflexivity|]. cbn [cm_nodes cm_cells]. split; [reflexivity|]. split; [reflexivity|]. split.
  - intros n d Hn0 Hd. unfold cm_coord, getu, get. cbn [cm_coords]. rewrite Hco by assumption. cbn [bind]. destruct (nth_error xs (d * nn + n)); reflexivity.
  - exact Hn'.
Qed.
Lemma parse_short nn xs ne cs : length xs <= nn * 3 -> length cs < ne * 8 -> (forall q, q < length cs -> (1 <= nth q cs 0)%Z) -> parse_mesh (geo_text nn xs ne cs) = Err Uninit.
Proof.
  intros Hx Hc Hp. unfold geo_text, parse_mesh.
  destruct (read_coords_ok nn xs (TWord :: TInt (Z.of_nat ne) :: map TInt cs) Hx I) as (co & -> & Lc & Hco). cbn [bind scan_word scan_int].
  destruct (Z.ltb_spec (Z.of_nat ne) 0); [lia|]. rewrite Nat2Z.id. rewrite read_cells_short by assumption. reflexivity.
Qed.
Lemma parse_neg nn xs ne cs k : length xs <= nn * 3 -> k < ne * 8 -> k < length cs -> (forall q, q < k -> (1 <= nth q cs 0)%Z) -> (nth k cs 0 < 1)%Z -> parse_mesh (geo_text nn xs ne cs) = Err OOB.
Proof.
  intros Hx Hk Hc Hp Hn. unfold geo_text, parse_mesh.
  destruct (read_coords_ok nn xs (TWord :: TInt (Z.of_nat ne) :: map TInt cs) Hx I) as (co & -> & Lc & Hco). cbn [bind scan_word scan_int].
  destruct (Z.ltb_spec (Z.of_nat ne) 0); [lia|]. rewrite Nat2Z.id. rewrite <- (app_nil_r (map TInt cs)). rewrite (read_cells_neg ne cs [] k) by assumption. reflexivity.
Qed.
