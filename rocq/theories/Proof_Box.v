(** The box mesh: numbering, points and cells. *)
From Coq Require Import List Arith ZArith Reals Lia Bool FinFun.
Import ListNotations.
Require Import Verif.Base Verif.RBase Verif.Model_Box Verif.Spec_Box.
Local Open Scope nat_scope.

(** * numbering *)
Lemma number_inj a b i j k i' j' k' : i < a -> i' < a -> j < b -> j' < b -> number a b i j k = number a b i' j' k' -> i = i' /\ j = j' /\ k = k'.
Proof.
  unfold number. intros Hi Hi' Hj Hj' E.
  assert (k = k').
  { assert (i + j * a < a * b) by nia. assert (i' + j' * a < a * b) by nia. nia. }
  subst k'. assert (j = j') by nia. subst j'. split; lia.
Qed.
Lemma number_lt a b c i j k : i < a -> j < b -> k < c -> number a b i j k < a * b * c.
Proof. unfold number. intros. assert (i + j * a < a * b) by nia. nia. Qed.
Lemma number_surj a b c m : m < a * b * c -> exists i j k, i < a /\ j < b /\ k < c /\ m = number a b i j k.
Proof.
  intros H. destruct (Nat.eq_dec a 0) as [->|Na]; [cbn in H; lia|]. destruct (Nat.eq_dec b 0) as [->|Nb]; [rewrite Nat.mul_0_r in H; cbn in H; lia|].
  exists (m mod a), ((m / a) mod b), (m / (a * b)).
  split; [apply Nat.mod_upper_bound; exact Na|]. split; [apply Nat.mod_upper_bound; exact Nb|]. split.
  - apply Nat.div_lt_upper_bound; [nia|exact H].
  - unfold number. rewrite <- Nat.div_div by assumption.
    pose proof (Nat.div_mod m a Na). pose proof (Nat.div_mod (m / a) b Nb). nia.
Qed.

Lemma get_id_nat i j k a b : get_id (Zn i) (Zn j) (Zn k) (Zn a) (Zn b) = Zn (number a b i j k).
Proof. unfold get_id, number. lia. Qed.
Lemma setz_nat {A} (l : list A) m v z : z = Zn m -> setz l z v = set l m v.
Proof. intros ->. unfold setz. destruct (Z.ltb_spec (Zn m) 0); [lia|]. rewrite Nat2Z.id. reflexivity. Qed.

Lemma upd_nth {A} (a : list A) i v j : i < length a -> nth_error (upd a i v) j = if j =? i then Some v else nth_error a j.
Proof.
  revert i j. induction a as [|h t IH]; intros i j H; cbn [length] in H; [lia|].
  destruct i, j; cbn; try reflexivity. rewrite IH by lia. reflexivity.
Qed.

(** * loops over the grid as one iteration *)
Definition grid_list (ni nj nk : nat) : list (nat * nat * nat) :=
  flat_map (fun k => flat_map (fun j => map (fun i => (i, j, k)) (seq 0 ni)) (seq 0 nj)) (seq 0 nk).

Lemma iter_app {A S} (l1 l2 : list A) (body : A -> S -> res S) s : iter (l1 ++ l2) body s = (do s <- iter l1 body s; iter l2 body s).
Proof. revert s. induction l1 as [|a l1 IH]; intros s; cbn; [reflexivity|]. destruct (body a s); cbn; [apply IH|reflexivity]. Qed.
Lemma loop_from_iter {S} lo n (body : nat -> S -> res S) : forall s, loop_from lo n body s = iter (seq lo n) body s.
Proof. revert lo. induction n; intros lo s; cbn; [reflexivity|]. destruct (body lo s); cbn; [apply IHn|reflexivity]. Qed.
Lemma iter_ext_in {A S} (l : list A) (f g : A -> S -> res S) : (forall a s, In a l -> f a s = g a s) -> forall s, iter l f s = iter l g s.
Proof.
  induction l as [|a l IH]; intros H s; cbn; [reflexivity|]. rewrite (H a s (or_introl eq_refl)). destruct (g a s); cbn; [|reflexivity].
  apply IH. intros; apply H; right; assumption.
Qed.
Lemma iter_flat {A B S} (l : list A) (g : A -> list B) (body : B -> S -> res S) : forall s, iter l (fun a s => iter (g a) body s) s = iter (flat_map g l) body s.
Proof. induction l as [|a l IH]; intros s; cbn; [reflexivity|]. rewrite iter_app. destruct (iter (g a) body s); cbn; [apply IH|reflexivity]. Qed.
Lemma iter_map {A B S} (l : list A) (g : A -> B) (body : B -> S -> res S) : forall s, iter (map g l) body s = iter l (fun a s => body (g a) s) s.
Proof. induction l as [|a l IH]; intros s; cbn; [reflexivity|]. destruct (body (g a) s); cbn; [apply IH|reflexivity]. Qed.

Lemma loop3_iter {S} ni nj nk (body : nat -> nat -> nat -> S -> res S) s :
  loop nk (fun k s => loop nj (fun j s => loop ni (fun i s => body i j k s) s) s) s =
  iter (grid_list ni nj nk) (fun x s => let '(i, j, k) := x in body i j k s) s.
Proof.
  unfold loop, grid_list. rewrite loop_from_iter, <- iter_flat. apply iter_ext_in. intros k s1 _.
  rewrite loop_from_iter, <- iter_flat. apply iter_ext_in. intros j s2 _.
  rewrite loop_from_iter, iter_map. reflexivity.
Qed.

Lemma grid_In ni nj nk i j k : In (i, j, k) (grid_list ni nj nk) <-> i < ni /\ j < nj /\ k < nk.
Proof.
  unfold grid_list. rewrite in_flat_map. split.
  - intros (k' & Hk & H). apply in_flat_map in H. destruct H as (j' & Hj & H). apply in_map_iff in H. destruct H as (i' & E & Hi).
    inversion E; subst. rewrite in_seq in *. lia.
  - intros (Hi & Hj & Hk). exists k. split; [apply in_seq; lia|]. apply in_flat_map. exists j. split; [apply in_seq; lia|].
    apply in_map_iff. exists i. split; [reflexivity|apply in_seq; lia].
Qed.
Lemma NoDup_app_intro {A} (l1 l2 : list A) : NoDup l1 -> NoDup l2 -> (forall x, In x l1 -> ~ In x l2) -> NoDup (l1 ++ l2).
Proof.
  induction l1 as [|a l1 IH]; intros H1 H2 D; cbn; [exact H2|]. inversion H1; subst. constructor.
  - intros H. apply in_app_iff in H. destruct H; [contradiction|]. apply (D a); [left; reflexivity|assumption].
  - apply IH; try assumption. intros x Hx. apply D. right. exact Hx.
Qed.
Lemma NoDup_flat {A B} (l : list A) (g : A -> list B) : NoDup l -> (forall a, In a l -> NoDup (g a)) ->
  (forall a a' b, In a l -> In a' l -> In b (g a) -> In b (g a') -> a = a') -> NoDup (flat_map g l).
Proof.
  induction l as [|a l IH]; intros N G D; cbn; [constructor|]. inversion N; subst. apply NoDup_app_intro.
  - apply G. left. reflexivity.
  - apply IH; [assumption|intros; apply G; right; assumption|]. intros a1 a2 b H H0 H3 H4. apply (D a1 a2 b); try (right; assumption); assumption.
  - intros x Hx Hf. apply in_flat_map in Hf. destruct Hf as (a' & Ha & Hb). assert (a = a') by (apply (D a a' x); [left; reflexivity|right; exact Ha|exact Hx|exact Hb]). subst. contradiction.
Qed.
Lemma grid_NoDup ni nj nk : NoDup (grid_list ni nj nk).
Proof.
  unfold grid_list. apply NoDup_flat; [apply seq_NoDup| |].
  - intros k _. apply NoDup_flat; [apply seq_NoDup| |].
    + intros j _. apply FinFun.Injective_map_NoDup; [|apply seq_NoDup]. intros x y E. inversion E. reflexivity.
    + intros j j' b _ _ H H'. apply in_map_iff in H, H'. destruct H as (i & <- & _), H' as (i' & E & _). inversion E. reflexivity.
  - intros k k' b _ _ H H'. apply in_flat_map in H, H'. destruct H as (j & _ & H), H' as (j' & _ & H').
    apply in_map_iff in H, H'. destruct H as (i & <- & _), H' as (i' & E & _). inversion E. reflexivity.
Qed.

(** * rows *)
(** a' is a after the row r (w entries) has been set to v *)
Definition row_set {A} (w r : nat) (v : nat -> A) (a a' : list (option A)) : Prop :=
  length a' = length a /\ forall r' c, c < w -> nth_error a' (r' * w + c) = if r' =? r then Some (Some (v c)) else nth_error a (r' * w + c).

Lemma rows_iter {X A S} (w : nat) (I : S -> Prop) (l : list X) (row : X -> nat) (v : X -> nat -> A) (get_ : S -> list (option A)) (body : X -> S -> res S) (s0 : S) :
  NoDup l -> (forall x y, In x l -> In y l -> row x = row y -> x = y) ->
  I s0 -> (forall x s, In x l -> I s -> exists s', body x s = Ok s' /\ I s' /\ row_set w (row x) (v x) (get_ s) (get_ s')) ->
  exists s', iter l body s0 = Ok s' /\ I s' /\ forall x c, In x l -> c < w -> at_ w (get_ s') (row x) c (v x c).
Proof.
  intros N Inj L0 St.
  destruct (iter_inv (fun pre s => I s /\ forall x c, In x pre -> c < w -> at_ w (get_ s) (row x) c (v x c)) l body s0) as (s' & E & H).
  - split; [exact L0|]. intros x c [].
  - intros pre x post s El [Ls Hs]. assert (Ix : In x l) by (rewrite El; apply in_app_iff; right; left; reflexivity).
    destruct (St x s Ix Ls) as (s' & E & Is & (L & R)). exists s'. split; [exact E|]. split; [exact Is|].
    intros y c Hy Hc. unfold at_. rewrite R by exact Hc. destruct (Nat.eqb_spec (row y) (row x)) as [e|ne].
    + apply in_app_iff in Hy. assert (y = x) as ->; [|reflexivity]. apply Inj; [|exact Ix|exact e]. rewrite El. apply in_app_iff. destruct Hy as [Hy|[->|[]]]; [left; exact Hy|right; left; reflexivity].
    + apply in_app_iff in Hy. destruct Hy as [Hy|[<-|[]]]; [|contradiction]. apply (Hs y c Hy Hc).
  - exists s'. split; [exact E|exact H].
Qed.

Ltac rowcase := intros r' c Hc; rewrite !upd_nth by (rewrite ?upd_length; assumption || nia);
  match goal with |- context [?r' =? ?r] => destruct (Nat.eqb_spec r' r) as [->|ne] end.

(** * points *)
Lemma box_points_ok ni nj nk sx sy sz dx dy dz : exists pts, box_points ni nj nk sx sy sz dx dy dz = Ok pts /\
  length pts = (ni + 1) * (nj + 1) * (nk + 1) * 3 /\
  forall i j k, i <= ni -> j <= nj -> k <= nk ->
    at_ 3 pts (point_of ni nj i j k) 0 (sx + INR i * dx)%R /\ at_ 3 pts (point_of ni nj i j k) 1 (sy + INR j * dy)%R /\ at_ 3 pts (point_of ni nj i j k) 2 (sz + INR k * dz)%R.
Proof.
  unfold box_points. rewrite loop3_iter.
  set (v := fun (x : nat * nat * nat) (c : nat) => let '(i, j, k) := x in match c with 0 => (sx + INR i * dx)%R | 1 => (sy + INR j * dy)%R | _ => (sz + INR k * dz)%R end).
  set (row := fun (x : nat * nat * nat) => let '(i, j, k) := x in point_of ni nj i j k).
  destruct (rows_iter 3 (fun s => length s = (ni + 1) * (nj + 1) * (nk + 1) * 3) (grid_list (ni + 1) (nj + 1) (nk + 1)) row v (fun s => s)
    (fun x s => let '(i, j, k) := x in
      let id := get_id (Zn i) (Zn j) (Zn k) (Zn (ni + 1)) (Zn (nj + 1)) in
      do s <- setz s (id * 3 + 0) (Some (sx + INR i * dx)%R);
      do s <- setz s (id * 3 + 1) (Some (sy + INR j * dy)%R);
      setz s (id * 3 + 2) (Some (sz + INR k * dz)%R)) (repeat None ((ni + 1) * (nj + 1) * (nk + 1) * 3))) as (pts & E & L & H).
  - apply grid_NoDup.
  - intros [[i j] k] [[i' j'] k'] H H' E. apply grid_In in H, H'. unfold row, point_of in E. apply number_inj in E; try lia. destruct E as (-> & -> & ->). reflexivity.
  - apply repeat_length.
  - intros [[i j] k] s Hx L. apply grid_In in Hx. cbv zeta. rewrite get_id_nat. fold (point_of ni nj i j k). set (m := point_of ni nj i j k).
    assert (Hm : m < (ni + 1) * (nj + 1) * (nk + 1)) by (apply number_lt; lia).
    rewrite (setz_nat _ (m * 3 + 0)) by lia. rewrite set_ok by nia. cbn [bind].
    rewrite (setz_nat _ (m * 3 + 1)) by lia. rewrite set_ok by (rewrite upd_length; nia). cbn [bind].
    rewrite (setz_nat _ (m * 3 + 2)) by lia. rewrite set_ok by (rewrite !upd_length; nia).
    eexists. split; [reflexivity|]. split; [rewrite !upd_length; exact L|]. split; [rewrite !upd_length; reflexivity|]. cbn [row]. fold m.
    intros r' c Hc. rewrite !upd_nth by (rewrite ?upd_length; nia).
    destruct (Nat.eqb_spec r' m) as [->|ne].
    + destruct c as [|[|[|c]]]; [| | |lia]; repeat match goal with |- context [?a =? ?b] => destruct (Nat.eqb_spec a b); try lia end; reflexivity.
    + repeat match goal with |- context [?a =? ?b] => destruct (Nat.eqb_spec a b); try lia end. reflexivity.
  - exists pts. split; [exact E|]. split; [exact L|]. intros i j k Hi Hj Hk.
    assert (I : In (i, j, k) (grid_list (ni + 1) (nj + 1) (nk + 1))) by (apply grid_In; lia).
    split; [exact (H _ 0 I ltac:(lia))|]. split; [exact (H _ 1 I ltac:(lia))|exact (H _ 2 I ltac:(lia))].
Qed.

(** * cells *)
Definition cell_body (ni nj : nat) (dx dy dz : R) (x : nat * nat * nat) (s : list (option R) * list (option Z)) : res (list (option R) * list (option Z)) :=
  let '(i, j, k) := x in let '(cc, cpl) := s in
  let id := get_id (Zn i) (Zn j) (Zn k) (Zn ni) (Zn nj) in
  do cc <- setz cc (id * 3 + 0) (Some (INR i * dx + dx / 2)%R);
  do cc <- setz cc (id * 3 + 1) (Some (INR j * dy + dy / 2)%R);
  do cc <- setz cc (id * 3 + 2) (Some (INR k * dz + dz / 2)%R);
  do (cpl, _) <- loop_from k 2 (fun kc s => loop_from j 2 (fun jc s => loop_from i 2 (fun ic '(cpl, this_point) =>
    let point_id := get_id (Zn ic) (Zn jc) (Zn kc) (Zn (ni + 1)) (Zn (nj + 1)) in
    do this_index <- get convert_point_number this_point;
    do cpl <- setz cpl (id * 8 + Zn this_index) (Some point_id);
    Ok (cpl, this_point + 1)) s) s) (cpl, 0);
  Ok (cc, cpl).

Definition corner_id (ni nj : nat) (x : nat * nat * nat) (v : nat) : Z :=
  let '(i, j, k) := x in let '(a, b, c) := fe_corner v in Zn (point_of ni nj (i + a) (j + b) (k + c)).

Lemma cell_step ni nj nk dx dy dz i j k cc cpl : i < ni -> j < nj -> k < nk ->
  length cc = ni * nj * nk * 3 -> length cpl = ni * nj * nk * 8 ->
  exists cc' cpl', cell_body ni nj dx dy dz (i, j, k) (cc, cpl) = Ok (cc', cpl') /\
    row_set 3 (cell_of ni nj i j k) (fun c => match c with 0 => (INR i * dx + dx / 2)%R | 1 => (INR j * dy + dy / 2)%R | _ => (INR k * dz + dz / 2)%R end) cc cc' /\
    row_set 8 (cell_of ni nj i j k) (corner_id ni nj (i, j, k)) cpl cpl'.
Proof.
  intros Hi Hj Hk Lc Lp. unfold cell_body. cbv zeta. rewrite get_id_nat. fold (cell_of ni nj i j k). set (m := cell_of ni nj i j k).
  assert (Hm : m < ni * nj * nk) by (apply number_lt; assumption).
  rewrite (setz_nat _ (m * 3 + 0)) by lia. rewrite set_ok by nia. cbn [bind].
  rewrite (setz_nat _ (m * 3 + 1)) by lia. rewrite set_ok by (rewrite upd_length; nia). cbn [bind].
  rewrite (setz_nat _ (m * 3 + 2)) by lia. rewrite set_ok by (rewrite !upd_length; nia). cbn [bind].
  cbn [loop_from]. rewrite !get_id_nat.
  Ltac one m := cbn [get nth_error convert_point_number bind Nat.add];
    match goal with |- context [setz ?l (Zn m * 8 + Zn ?t) ?v] => rewrite (setz_nat l (m * 8 + t) v) by lia; rewrite set_ok by (rewrite ?upd_length; lia) end; cbn [bind Nat.add].
  unfold get, convert_point_number.
  do 8 one m.
  eexists _, _. split; [reflexivity|]. split.
  - split; [rewrite !upd_length; reflexivity|]. intros r' c Hc. rewrite !upd_nth by (rewrite ?upd_length; nia).
    destruct (Nat.eqb_spec r' m) as [->|ne].
    + destruct c as [|[|[|c]]]; [| | |lia]; repeat match goal with |- context [?a =? ?b] => destruct (Nat.eqb_spec a b); try lia end; reflexivity.
    + repeat match goal with |- context [?a =? ?b] => destruct (Nat.eqb_spec a b); try lia end. reflexivity.
  - split; [rewrite !upd_length; reflexivity|]. intros r' c Hc. rewrite !upd_nth by (rewrite ?upd_length; lia).
    destruct (Nat.eqb_spec r' m) as [->|ne].
    + unfold corner_id. do 8 (destruct c as [|c]; [repeat match goal with |- context [?a =? ?b] => destruct (Nat.eqb_spec a b); try lia end; cbn [fe_corner]; unfold point_of; rewrite ?Nat.add_0_r, ?Nat.add_1_r; reflexivity|]). lia.
    + repeat match goal with |- context [?a =? ?b] => destruct (Nat.eqb_spec a b); try lia end. reflexivity.
Qed.

Lemma box_cells_ok ni nj nk dx dy dz : exists cc cpl, box_cells ni nj nk dx dy dz = Ok (cc, cpl) /\
  length cc = ni * nj * nk * 3 /\ length cpl = ni * nj * nk * 8 /\
  forall i j k, i < ni -> j < nj -> k < nk ->
    (at_ 3 cc (cell_of ni nj i j k) 0 (INR i * dx + dx / 2)%R /\ at_ 3 cc (cell_of ni nj i j k) 1 (INR j * dy + dy / 2)%R /\ at_ 3 cc (cell_of ni nj i j k) 2 (INR k * dz + dz / 2)%R) /\
    forall v, v < 8 -> at_ 8 cpl (cell_of ni nj i j k) v (corner_id ni nj (i, j, k) v).
Proof.
  unfold box_cells. rewrite loop3_iter.
  rewrite (iter_ext_in _ _ (cell_body ni nj dx dy dz)) by (intros [[i j] k] [cc cpl] _; reflexivity).
  set (row := fun (x : nat * nat * nat) => let '(i, j, k) := x in cell_of ni nj i j k).
  set (I := fun s : list (option R) * list (option Z) => length (fst s) = ni * nj * nk * 3 /\ length (snd s) = ni * nj * nk * 8).
  assert (Inj : forall x y, In x (grid_list ni nj nk) -> In y (grid_list ni nj nk) -> row x = row y -> x = y).
  { intros [[i j] k] [[i' j'] k'] H H' E. apply grid_In in H, H'. unfold row, cell_of in E. apply number_inj in E; try lia. destruct E as (-> & -> & ->). reflexivity. }
  assert (I0 : I (repeat None (ni * nj * nk * 3), repeat None (ni * nj * nk * 8))) by (split; apply repeat_length).
  destruct (rows_iter 3 I (grid_list ni nj nk) row (fun x c => let '(i, j, k) := x in match c with 0 => (INR i * dx + dx / 2)%R | 1 => (INR j * dy + dy / 2)%R | _ => (INR k * dz + dz / 2)%R end) fst
    (cell_body ni nj dx dy dz) _ (grid_NoDup _ _ _) Inj I0) as (s1 & E1 & I1 & H1).
  { intros [[i j] k] [cc cpl] Hx [L1 L2]. apply grid_In in Hx. destruct (cell_step ni nj nk dx dy dz i j k cc cpl) as (cc' & cpl' & E & A & B); try lia; try assumption.
    exists (cc', cpl'). split; [exact E|]. split; [|exact A]. split; cbn in *; [rewrite (proj1 A)|rewrite (proj1 B)]; assumption. }
  destruct (rows_iter 8 I (grid_list ni nj nk) row (corner_id ni nj) snd
    (cell_body ni nj dx dy dz) _ (grid_NoDup _ _ _) Inj I0) as (s2 & E2 & I2 & H2).
  { intros [[i j] k] [cc cpl] Hx [L1 L2]. apply grid_In in Hx. destruct (cell_step ni nj nk dx dy dz i j k cc cpl) as (cc' & cpl' & E & A & B); try lia; try assumption.
    exists (cc', cpl'). split; [exact E|]. split; [|exact B]. split; cbn in *; [rewrite (proj1 A)|rewrite (proj1 B)]; assumption. }
  rewrite E1 in E2. inversion E2; subst s2. destruct s1 as [cc cpl]. exists cc, cpl. split; [exact E1|]. split; [apply I1|]. split; [apply I1|].
  intros i j k Hi Hj Hk. assert (G : In (i, j, k) (grid_list ni nj nk)) by (apply grid_In; lia).
  split; [split; [exact (H1 _ 0 G ltac:(lia))|split; [exact (H1 _ 1 G ltac:(lia))|exact (H1 _ 2 G ltac:(lia))]]|].
  intros v Hv. exact (H2 _ v G Hv).
Qed.
