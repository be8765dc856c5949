(** The box mesh: faces. *)
From Coq Require Import List Arith ZArith Reals Lia Bool FinFun.
Import ListNotations.
Require Import Verif.Base Verif.RBase Verif.NatSum Verif.Model_Box Verif.Spec_Box Verif.Proof_Box.
Local Open Scope nat_scope.

Definition one_if (c : bool) (f : face) : list face := if c then [f] else [].
Definition faces_at (ni nj nk : nat) (x : nat * nat * nat) : list face :=
  let '(i, j, k) := x in
  one_if ((j <? nj) && (k <? nk)) (Face 0 i j k) ++ one_if ((i <? ni) && (k <? nk)) (Face 1 i j k) ++ one_if ((i <? ni) && (j <? nj)) (Face 2 i j k).
Definition face_list (ni nj nk : nat) : list face := flat_map (faces_at ni nj nk) (grid_list (ni + 1) (nj + 1) (nk + 1)).

(** * counting *)
Lemma flat_map_seq_len {A} (f : nat -> list A) n : length (flat_map f (seq 0 n)) = nsum n (fun i => length (f i)).
Proof.
  induction n; [reflexivity|]. rewrite seq_S, flat_map_app, app_length, IHn. cbn. rewrite app_nil_r. reflexivity.
Qed.
Lemma flat_map_flat {A B C} (f : A -> list B) (g : B -> list C) l : flat_map g (flat_map f l) = flat_map (fun a => flat_map g (f a)) l.
Proof. induction l; cbn; [reflexivity|]. rewrite flat_map_app, IHl. reflexivity. Qed.
Lemma flat_map_map {A B C} (f : A -> B) (g : B -> list C) l : flat_map g (map f l) = flat_map (fun a => g (f a)) l.
Proof. induction l; cbn; [reflexivity|]. rewrite IHl. reflexivity. Qed.
Lemma len_grid {A} (g : nat * nat * nat -> list A) a b c :
  length (flat_map g (grid_list a b c)) = nsum c (fun k => nsum b (fun j => nsum a (fun i => length (g (i, j, k))))).
Proof.
  unfold grid_list. rewrite flat_map_flat, flat_map_seq_len. apply nsum_ext. intros k _.
  rewrite flat_map_flat, flat_map_seq_len. apply nsum_ext. intros j _. rewrite flat_map_map, flat_map_seq_len. reflexivity.
Qed.
Definition b2n (b : bool) : nat := if b then 1 else 0.
Lemma nsum_const n c : nsum n (fun _ => c) = n * c.
Proof. induction n; cbn [nsum]; lia. Qed.
Lemma nsum_mul_l n c f : nsum n (fun i => c * f i) = c * nsum n f.
Proof. induction n; cbn [nsum]; lia. Qed.
Lemma nsum_lt n : nsum (n + 1) (fun i => b2n (i <? n)) = n.
Proof.
  rewrite Nat.add_1_r. cbn [nsum]. rewrite Nat.ltb_irrefl. cbn [b2n]. rewrite (nsum_ext n _ (fun _ => 1)).
  - rewrite nsum_const. lia.
  - intros i Hi. apply Nat.ltb_lt in Hi. rewrite Hi. reflexivity.
Qed.
Lemma one_if_len c f : length (one_if c f) = b2n c.
Proof. destruct c; reflexivity. Qed.
Lemma b2n_and a b : b2n (a && b) = b2n a * b2n b.
Proof. destruct a, b; reflexivity. Qed.

Lemma face_list_len ni nj nk : length (face_list ni nj nk) = box_num_faces (ni + 1) (nj + 1) (nk + 1).
Proof.
  unfold face_list. rewrite len_grid.
  rewrite (nsum_ext (nk + 1) _ (fun k => (ni + 1) * nj * b2n (k <? nk) + ni * (nj + 1) * b2n (k <? nk) + ni * nj)).
  - rewrite !nsum_plus, !nsum_mul_l, nsum_lt, nsum_const. unfold box_num_faces. rewrite !Nat.add_sub. lia.
  - intros k _.
    rewrite (nsum_ext (nj + 1) _ (fun j => (ni + 1) * b2n (k <? nk) * b2n (j <? nj) + ni * b2n (k <? nk) + ni * b2n (j <? nj))).
    + rewrite !nsum_plus, !nsum_mul_l, nsum_lt, nsum_const. lia.
    + intros j _. rewrite (nsum_ext (ni + 1) _ (fun i => b2n (j <? nj) * b2n (k <? nk) + b2n (k <? nk) * b2n (i <? ni) + b2n (j <? nj) * b2n (i <? ni))).
      * rewrite !nsum_plus, !nsum_mul_l, nsum_lt, nsum_const. lia.
      * intros i _. unfold faces_at. rewrite !app_length, !one_if_len, !b2n_and. lia.
Qed.

Lemma one_if_In c f g : In g (one_if c f) <-> c = true /\ g = f.
Proof. destruct c; cbn; [|intuition discriminate]. split; [intros [H|[]]; auto|intros [_ ->]; auto]. Qed.

Lemma face_In ni nj nk f : In f (face_list ni nj nk) <-> is_face ni nj nk f.
Proof.
  unfold face_list. rewrite in_flat_map. split.
  - intros ([[i j] k] & G & H). apply grid_In in G. unfold faces_at in H. rewrite !in_app_iff, !one_if_In, !andb_true_iff, !Nat.ltb_lt in H.
    unfold is_face. destruct H as [[H ->]|[[H ->]|[H ->]]]; cbn; lia.
  - destruct f as [d i j k]. unfold is_face. cbn. intros H. exists (i, j, k). split; [apply grid_In; destruct d as [|[|[|d]]]; lia|].
    unfold faces_at. rewrite !in_app_iff, !one_if_In, !andb_true_iff, !Nat.ltb_lt.
    destruct d as [|[|[|d]]]; [left|right; left|right; right|contradiction]; (split; [lia|reflexivity]).
Qed.
Lemma face_NoDup ni nj nk : NoDup (face_list ni nj nk).
Proof.
  unfold face_list. apply NoDup_flat; [apply grid_NoDup| |].
  - intros [[i j] k] _. unfold faces_at. destruct ((j <? nj) && (k <? nk)), ((i <? ni) && (k <? nk)), ((i <? ni) && (j <? nj)); cbn; repeat constructor; cbn; intuition discriminate.
  - intros [[i j] k] [[i' j'] k'] f _ _ H H'. unfold faces_at in H, H'. rewrite !in_app_iff, !one_if_In in H, H'.
    destruct H as [[_ ->]|[[_ ->]|[_ ->]]], H' as [[_ E]|[[_ E]|[_ E]]]; inversion E; reflexivity.
Qed.

(** * one face *)
Definition stride (ni nj d : nat) : nat := match d with 0 => 1 | 1 => ni | _ => ni * nj end.
Definition ahead_exists (ni nj nk : nat) (f : face) : bool := match f_dir f with 0 => f_i f <? ni | 1 => f_j f <? nj | _ => f_k f <? nk end.
Definition behind_exists (f : face) : bool := match f_dir f with 0 => 0 <? f_i f | 1 => 0 <? f_j f | _ => 0 <? f_k f end.
Definition ahead_id (ni nj : nat) (f : face) : nat := cell_of ni nj (f_i f) (f_j f) (f_k f).
Definition behind_id (ni nj : nat) (f : face) : nat := cell_of ni nj (f_i f - step_i (f_dir f)) (f_j f - step_j (f_dir f)) (f_k f - step_k (f_dir f)).
Definition corner_pt (ni nj : nat) (f : face) (v : nat) : Z := let '(a, b, c) := face_corner (f_dir f) v in Zn (point_of ni nj (f_i f + a) (f_j f + b) (f_k f + c)).

Definition face_body (ni nj nk : nat) (ffi : list (option nat)) (f : face) (s : fstate) : res fstate :=
  add_face ffi (corner_pt ni nj f 0) (corner_pt ni nj f 1) (corner_pt ni nj f 2) (corner_pt ni nj f 3)
    (Zn (ahead_id ni nj f)) (Zn (ahead_id ni nj f) - Zn (stride ni nj (f_dir f)))%Z (f_dir f) (ahead_exists ni nj nk f) (behind_exists f) s.

Lemma behind_ok ni nj f : behind_exists f = true -> (f_dir f < 3) -> (Zn (ahead_id ni nj f) - Zn (stride ni nj (f_dir f)))%Z = Zn (behind_id ni nj f).
Proof.
  destruct f as [d i j k]. unfold behind_exists, ahead_id, behind_id, cell_of, number. cbn [f_dir f_i f_j f_k]. intros H D.
  destruct d as [|[|[|d]]]; [| | |lia]; apply Nat.ltb_lt in H; cbn [stride step_i step_j step_k Nat.eqb]; rewrite ?Nat.sub_0_r.
  - lia.
  - destruct j; [lia|]. cbn [Nat.sub]. rewrite Nat.sub_0_r. nia.
  - destruct k; [lia|]. cbn [Nat.sub]. rewrite Nat.sub_0_r. nia.
Qed.

Lemma box_faces_iter ni nj nk ffi s0 : box_faces ni nj nk ffi s0 = iter (face_list ni nj nk) (face_body ni nj nk ffi) s0.
Proof.
  unfold box_faces. rewrite loop3_iter. unfold face_list. rewrite <- iter_flat. apply iter_ext_in. intros [[i j] k] s G. apply grid_In in G.
  cbv zeta. unfold faces_at. rewrite !Nat.add_sub. rewrite !iter_app.
  assert (C : forall (c : bool) (f : face) (s : fstate), (if c then face_body ni nj nk ffi f s else Ok s) = iter (one_if c f) (face_body ni nj nk ffi) s).
  { intros [|] f s1; cbn; [|reflexivity]. destruct (face_body ni nj nk ffi f s1); reflexivity. }
  assert (P : forall a b c, get_id (Zn i + Zn a) (Zn j + Zn b) (Zn k + Zn c) (Zn (ni + 1)) (Zn (nj + 1)) = Zn (point_of ni nj (i + a) (j + b) (k + c))).
  { intros a b c. rewrite <- !Nat2Z.inj_add. apply get_id_nat. }
  assert (B0 : forall n m, ((0 <=? Zn n) && (Zn n <? Zn m))%Z%bool = (n <? m)).
  { intros n m. destruct (Z.leb_spec 0 (Zn n)); [|lia]. destruct (Z.ltb_spec (Zn n) (Zn m)), (Nat.ltb_spec n m); try lia; reflexivity. }
  assert (B1 : forall n m, n <= m -> ((0 <=? Zn n - 1) && (Zn n - 1 <? Zn m))%Z%bool = (0 <? n)).
  { intros n m L. destruct (Z.leb_spec 0 (Zn n - 1)), (Z.ltb_spec (Zn n - 1) (Zn m)), (Nat.ltb_spec 0 n); try lia; reflexivity. }
  rewrite <- (C ((j <? nj) && (k <? nk))).
  match goal with |- bind ?a _ = bind ?b _ => assert (E : a = b); [|rewrite E; destruct b as [s1|]; [cbn [bind]|reflexivity]] end.
  { destruct ((j <? nj) && (k <? nk)); [|reflexivity]. unfold face_body, corner_pt, ahead_exists, behind_exists, ahead_id. cbn [f_dir f_i f_j f_k face_corner].
    f_equal.
    - rewrite <- P. f_equal; lia.
    - rewrite <- P. f_equal; lia.
    - rewrite <- P. f_equal; lia.
    - rewrite <- P. f_equal; lia.
    - apply get_id_nat.
    - unfold cell_of. rewrite <- get_id_nat. unfold get_id, stride. lia.
    - apply B0.
    - apply B1. lia. }
  rewrite iter_app. rewrite <- (C ((i <? ni) && (k <? nk))).
  match goal with |- bind ?a _ = bind ?b _ => assert (E2 : a = b); [|rewrite E2; destruct b as [s2|]; [cbn [bind]|reflexivity]] end.
  { destruct ((i <? ni) && (k <? nk)); [|reflexivity]. unfold face_body, corner_pt, ahead_exists, behind_exists, ahead_id. cbn [f_dir f_i f_j f_k face_corner].
    f_equal.
    - rewrite <- P. f_equal; lia.
    - rewrite <- P. f_equal; lia.
    - rewrite <- P. f_equal; lia.
    - rewrite <- P. f_equal; lia.
    - apply get_id_nat.
    - unfold cell_of. rewrite <- get_id_nat. unfold get_id, stride. lia.
    - apply B0.
    - apply B1. lia. }
  rewrite <- (C ((i <? ni) && (j <? nj))).
  destruct ((i <? ni) && (j <? nj)); [|reflexivity]. unfold face_body, corner_pt, ahead_exists, behind_exists, ahead_id. cbn [f_dir f_i f_j f_k face_corner].
    f_equal.
    - rewrite <- P. f_equal; lia.
    - rewrite <- P. f_equal; lia.
    - rewrite <- P. f_equal; lia.
    - rewrite <- P. f_equal; lia.
    - apply get_id_nat.
    - unfold cell_of. rewrite <- get_id_nat. unfold get_id, stride. nia.
    - apply B0.
    - apply B1. lia.
Qed.

(** * the loop invariant *)
Record finv (ni nj nk nf : nat) (pre : list face) (s : fstate) : Prop := {
  v_id : fst (fst (fst s)) = length pre;
  v_l1 : length (snd (fst (fst s))) = nf * 4;
  v_l2 : length (snd (fst s)) = nf * 2;
  v_l3 : length (snd s) = ni * nj * nk * 6;
  v_pts : forall n f v, nth_error pre n = Some f -> v < 4 -> at_ 4 (snd (fst (fst s))) n v (corner_pt ni nj f v);
  v_ahead : forall n f, nth_error pre n = Some f -> at_ 2 (snd (fst s)) n 1 (Zn (ahead_id ni nj f));
  v_behind : forall n f, nth_error pre n = Some f -> at_ 2 (snd (fst s)) n 0 (Zn (ahead_id ni nj f) - Zn (stride ni nj (f_dir f)))%Z;
  v_low : forall n f, nth_error pre n = Some f -> ahead_exists ni nj nk f = true -> at_ 6 (snd s) (ahead_id ni nj f) (f_dir f) n;
  v_high : forall n f, nth_error pre n = Some f -> behind_exists f = true -> at_ 6 (snd s) (behind_id ni nj f) (f_dir f + 3) n }.

Lemma ffi_ok nf : 6 <= nf -> exists a, face_face_index nf = Ok a /\ forall d, d < 3 -> getu a d = Ok (d + 3).
Proof.
  intros H. unfold face_face_index. do 6 (destruct nf as [|nf]; [lia|]). cbn [repeat set length Nat.ltb Nat.leb bind upd]. unfold set. cbn [length Nat.ltb Nat.leb bind upd].
  eexists. split; [reflexivity|]. intros d Hd. destruct d as [|[|[|d]]]; [reflexivity|reflexivity|reflexivity|lia].
Qed.

Lemma nth_snoc {A} (l : list A) a n x : nth_error (l ++ [a]) n = Some x -> (n < length l /\ nth_error l n = Some x) \/ (n = length l /\ x = a).
Proof.
  intros H. destruct (Nat.lt_trichotomy n (length l)) as [L|[L|L]].
  - left. rewrite nth_error_app1 in H by exact L. auto.
  - right. rewrite nth_error_app2 in H by lia. rewrite L, Nat.sub_diag in H. cbn in H. inversion H. auto.
  - rewrite nth_error_app2 in H by lia. destruct (n - length l) as [|m] eqn:E; [lia|]. cbn in H. destruct m; discriminate.
Qed.

Lemma ahead_lt ni nj nk f : is_face ni nj nk f -> ahead_exists ni nj nk f = true -> f_i f < ni /\ f_j f < nj /\ f_k f < nk.
Proof.
  destruct f as [d i j k]. unfold is_face, ahead_exists. cbn. intros H E. destruct d as [|[|[|d]]]; [| | |contradiction]; apply Nat.ltb_lt in E; lia.
Qed.
Lemma behind_lt ni nj nk f : is_face ni nj nk f -> behind_exists f = true ->
  f_i f - step_i (f_dir f) < ni /\ f_j f - step_j (f_dir f) < nj /\ f_k f - step_k (f_dir f) < nk.
Proof.
  destruct f as [d i j k]. unfold is_face, behind_exists. cbn [f_dir f_i f_j f_k]. intros H E. destruct d as [|[|[|d]]]; [| | |contradiction]; apply Nat.ltb_lt in E; unfold step_i, step_j, step_k; cbn [Nat.eqb]; lia.
Qed.
Lemma dir_lt ni nj nk f : is_face ni nj nk f -> f_dir f < 3.
Proof. unfold is_face. destruct (f_dir f) as [|[|[|d]]]; try lia; contradiction. Qed.

Lemma low_inj ni nj nk f g : is_face ni nj nk f -> is_face ni nj nk g -> ahead_exists ni nj nk f = true -> ahead_exists ni nj nk g = true ->
  ahead_id ni nj f * 6 + f_dir f = ahead_id ni nj g * 6 + f_dir g -> f = g.
Proof.
  intros Ff Fg Ef Eg E. pose proof (dir_lt _ _ _ _ Ff). pose proof (dir_lt _ _ _ _ Fg).
  assert (D : f_dir f = f_dir g) by lia. assert (I : ahead_id ni nj f = ahead_id ni nj g) by lia.
  apply ahead_lt in Ef; [|exact Ff]. apply ahead_lt in Eg; [|exact Fg].
  apply number_inj in I; try lia. destruct f, g; cbn in *. destruct I as (-> & -> & ->). subst. reflexivity.
Qed.
Lemma high_inj ni nj nk f g : is_face ni nj nk f -> is_face ni nj nk g -> behind_exists f = true -> behind_exists g = true ->
  behind_id ni nj f * 6 + (f_dir f + 3) = behind_id ni nj g * 6 + (f_dir g + 3) -> f = g.
Proof.
  intros Ff Fg Ef Eg E. pose proof (dir_lt _ _ _ _ Ff). pose proof (dir_lt _ _ _ _ Fg).
  assert (D : f_dir f = f_dir g) by lia. assert (I : behind_id ni nj f = behind_id ni nj g) by lia.
  pose proof (behind_lt _ _ _ _ Ff Ef) as Bf. pose proof (behind_lt _ _ _ _ Fg Eg) as Bg.
  apply number_inj in I; try lia. unfold behind_exists in Ef, Eg. destruct f as [d i j k], g as [d' i' j' k']; cbn [f_dir f_i f_j f_k] in *. subst d'. unfold step_i, step_j, step_k in *.
  destruct d as [|[|[|d]]]; [| | |lia]; apply Nat.ltb_lt in Ef, Eg; cbn [Nat.eqb] in *; f_equal; lia.
Qed.
Lemma low_high ni nj nk f g : is_face ni nj nk f -> is_face ni nj nk g -> ahead_id ni nj f * 6 + f_dir f <> behind_id ni nj g * 6 + (f_dir g + 3).
Proof. intros Ff Fg. pose proof (dir_lt _ _ _ _ Ff). pose proof (dir_lt _ _ _ _ Fg). lia. Qed.

Ltac eqb_cases := repeat match goal with |- context [?a =? ?b] => destruct (Nat.eqb_spec a b); try lia end.

Lemma face_step ni nj nk ffi pre f post s nf :
  (forall d, d < 3 -> getu ffi d = Ok (d + 3)) -> face_list ni nj nk = pre ++ f :: post -> nf = length (face_list ni nj nk) ->
  finv ni nj nk nf pre s -> exists s', face_body ni nj nk ffi f s = Ok s' /\ finv ni nj nk nf (pre ++ [f]) s'.
Proof.
  intros Hffi El Hnf V. destruct s as [[[n fpl] fcl] cfl]. destruct V as [Hid L1 L2 L3 Vp Va Vb Vl Vh]. cbn [fst snd] in *.
  assert (Hn : n < nf) by (rewrite Hnf, El, app_length; cbn; lia).
  assert (Isf : forall g, In g (pre ++ [f]) -> is_face ni nj nk g).
  { intros g Hg. apply face_In. rewrite El. apply in_app_iff in Hg. apply in_app_iff. destruct Hg as [Hg|[->|[]]]; [left; exact Hg|right; left; reflexivity]. }
  assert (Ff : is_face ni nj nk f) by (apply Isf; apply in_app_iff; right; left; reflexivity).
  assert (Fpre : forall m g, nth_error pre m = Some g -> is_face ni nj nk g /\ g <> f).
  { intros m g Hg. apply nth_error_In in Hg. split; [apply Isf; apply in_app_iff; left; exact Hg|]. intros ->.
    pose proof (face_NoDup ni nj nk) as N. rewrite El in N. apply NoDup_remove_2 in N. apply N. apply in_app_iff. left. exact Hg. }
  pose proof (dir_lt _ _ _ _ Ff) as Df.
  unfold face_body, add_face.
  rewrite set_ok by (rewrite ?upd_length; lia). cbn [bind]. rewrite set_ok by (rewrite ?upd_length; lia). cbn [bind].
  rewrite set_ok by (rewrite ?upd_length; lia). cbn [bind]. rewrite set_ok by (rewrite ?upd_length; lia). cbn [bind].
  rewrite Hffi by exact Df. cbn [bind].
  rewrite set_ok by (rewrite ?upd_length; lia). cbn [bind]. rewrite set_ok by (rewrite ?upd_length; lia). cbn [bind].
  assert (A1 : ahead_exists ni nj nk f = true -> ahead_id ni nj f < ni * nj * nk).
  { intros E. apply ahead_lt in E; [|exact Ff]. apply number_lt; lia. }
  assert (B1 : behind_exists f = true -> behind_id ni nj f < ni * nj * nk).
  { intros E. apply (behind_lt ni nj nk) in E; [|exact Ff]. apply number_lt; lia. }
  set (c1 := if ahead_exists ni nj nk f then upd cfl (ahead_id ni nj f * 6 + f_dir f) (Some n) else cfl).
  assert (E1 : (if ahead_exists ni nj nk f then setz cfl (Zn (ahead_id ni nj f) * 6 + Zn (f_dir f)) (Some n) else Ok cfl) = Ok c1).
  { unfold c1. destruct (ahead_exists ni nj nk f); [|reflexivity]. rewrite (setz_nat _ (ahead_id ni nj f * 6 + f_dir f)) by lia. apply set_ok. specialize (A1 eq_refl). lia. }
  rewrite E1. cbn [bind].
  assert (Lc1 : length c1 = ni * nj * nk * 6) by (unfold c1; destruct (ahead_exists ni nj nk f); rewrite ?upd_length; exact L3).
  set (c2 := if behind_exists f then upd c1 (behind_id ni nj f * 6 + (f_dir f + 3)) (Some n) else c1).
  assert (E2 : (if behind_exists f then setz c1 ((Zn (ahead_id ni nj f) - Zn (stride ni nj (f_dir f))) * 6 + Zn (f_dir f + 3)) (Some n) else Ok c1) = Ok c2).
  { unfold c2. destruct (behind_exists f) eqn:B; [|reflexivity]. rewrite behind_ok by assumption. rewrite (setz_nat _ (behind_id ni nj f * 6 + (f_dir f + 3))) by lia. apply set_ok. specialize (B1 eq_refl). lia. }
  rewrite E2. cbn [bind]. eexists. split; [reflexivity|]. constructor; cbn [fst snd].
  - rewrite app_length. cbn. lia.
  - rewrite !upd_length. exact L1.
  - rewrite !upd_length. exact L2.
  - unfold c2. destruct (behind_exists f); rewrite ?upd_length; exact Lc1.
  - intros m g v Hg Hv. apply nth_snoc in Hg. unfold at_. rewrite !upd_nth by (rewrite ?upd_length; lia).
    destruct Hg as [[Lm Hg]|[-> ->]].
    + rewrite <- Hid in Lm. eqb_cases. apply (Vp m g v Hg Hv).
    + rewrite <- Hid. destruct v as [|[|[|[|v]]]]; [| | | |lia]; eqb_cases; reflexivity.
  - intros m g Hg. apply nth_snoc in Hg. unfold at_. rewrite !upd_nth by (rewrite ?upd_length; lia).
    destruct Hg as [[Lm Hg]|[-> ->]].
    + rewrite <- Hid in Lm. eqb_cases. apply (Va m g Hg).
    + rewrite <- Hid. eqb_cases. reflexivity.
  - intros m g Hg. apply nth_snoc in Hg. unfold at_. rewrite !upd_nth by (rewrite ?upd_length; lia).
    destruct Hg as [[Lm Hg]|[-> ->]].
    + rewrite <- Hid in Lm. eqb_cases. apply (Vb m g Hg).
    + rewrite <- Hid. eqb_cases. reflexivity.
  - intros m g Hg Eg. apply nth_snoc in Hg. unfold at_.
    assert (Q1 : forall idx, nth_error c2 idx = if behind_exists f && (idx =? behind_id ni nj f * 6 + (f_dir f + 3)) then Some (Some n) else nth_error c1 idx).
    { intros idx. unfold c2. destruct (behind_exists f) eqn:B; [|reflexivity]. specialize (B1 eq_refl). rewrite upd_nth by lia. reflexivity. }
    assert (Q0 : forall idx, nth_error c1 idx = if ahead_exists ni nj nk f && (idx =? ahead_id ni nj f * 6 + f_dir f) then Some (Some n) else nth_error cfl idx).
    { intros idx. unfold c1. destruct (ahead_exists ni nj nk f) eqn:B; [|reflexivity]. specialize (A1 eq_refl). rewrite upd_nth by lia. reflexivity. }
    rewrite Q1, Q0. destruct Hg as [[Lm Hg]|[-> ->]].
    + destruct (Fpre m g Hg) as [Fg Ng]. pose proof (low_high ni nj nk g f Fg Ff) as LH.
      destruct (Nat.eqb_spec (ahead_id ni nj g * 6 + f_dir g) (behind_id ni nj f * 6 + (f_dir f + 3))); [contradiction|]. rewrite andb_false_r.
      destruct (Nat.eqb_spec (ahead_id ni nj g * 6 + f_dir g) (ahead_id ni nj f * 6 + f_dir f)) as [e|].
      * destruct (ahead_exists ni nj nk f) eqn:Ef; [|cbn [andb]; apply (Vl m g Hg Eg)]. exfalso. apply Ng. apply (low_inj ni nj nk); assumption.
      * rewrite andb_false_r. apply (Vl m g Hg Eg).
    + pose proof (low_high ni nj nk f f Ff Ff) as LH.
      destruct (Nat.eqb_spec (ahead_id ni nj f * 6 + f_dir f) (behind_id ni nj f * 6 + (f_dir f + 3))); [contradiction|]. rewrite andb_false_r.
      rewrite Eg, Nat.eqb_refl, <- Hid. reflexivity.
  - intros m g Hg Eg. apply nth_snoc in Hg. unfold at_.
    assert (Q1 : forall idx, nth_error c2 idx = if behind_exists f && (idx =? behind_id ni nj f * 6 + (f_dir f + 3)) then Some (Some n) else nth_error c1 idx).
    { intros idx. unfold c2. destruct (behind_exists f) eqn:B; [|reflexivity]. specialize (B1 eq_refl). rewrite upd_nth by lia. reflexivity. }
    assert (Q0 : forall idx, nth_error c1 idx = if ahead_exists ni nj nk f && (idx =? ahead_id ni nj f * 6 + f_dir f) then Some (Some n) else nth_error cfl idx).
    { intros idx. unfold c1. destruct (ahead_exists ni nj nk f) eqn:B; [|reflexivity]. specialize (A1 eq_refl). rewrite upd_nth by lia. reflexivity. }
    rewrite Q1, Q0. destruct Hg as [[Lm Hg]|[-> ->]].
    + destruct (Fpre m g Hg) as [Fg Ng]. pose proof (low_high ni nj nk f g Ff Fg) as LH.
      destruct (Nat.eqb_spec (behind_id ni nj g * 6 + (f_dir g + 3)) (ahead_id ni nj f * 6 + f_dir f)); [congruence|]. rewrite andb_false_r.
      destruct (Nat.eqb_spec (behind_id ni nj g * 6 + (f_dir g + 3)) (behind_id ni nj f * 6 + (f_dir f + 3))) as [e|].
      * destruct (behind_exists f) eqn:Ef; [|cbn [andb]; apply (Vh m g Hg Eg)]. exfalso. apply Ng. apply (high_inj ni nj nk); assumption.
      * rewrite andb_false_r. apply (Vh m g Hg Eg).
    + rewrite Eg, Nat.eqb_refl, <- Hid. reflexivity.
Qed.

Theorem box_faces_ok ni nj nk : 1 <= ni -> 1 <= nj -> 1 <= nk ->
  let nf := box_num_faces (ni + 1) (nj + 1) (nk + 1) in
  exists ffi s, face_face_index nf = Ok ffi /\
    box_faces ni nj nk ffi (0, repeat None (nf * 4), repeat None (nf * 2), repeat None (ni * nj * nk * 6)) = Ok s /\
    finv ni nj nk nf (face_list ni nj nk) s.
Proof.
  intros Hi Hj Hk nf. assert (H6 : 6 <= nf).
  { unfold nf, box_num_faces. rewrite !Nat.add_sub. assert (1 <= ni * nj) by nia. assert (1 <= nj * nk) by nia. assert (1 <= ni * nk) by nia. nia. }
  destruct (ffi_ok nf H6) as (ffi & Ef & Hf). exists ffi.
  destruct (iter_inv (finv ni nj nk nf) (face_list ni nj nk) (face_body ni nj nk ffi) (0, repeat None (nf * 4), repeat None (nf * 2), repeat None (ni * nj * nk * 6))) as (s & E & V).
  - constructor; cbn; try apply repeat_length; try reflexivity; intros [|n]; discriminate.
  - intros pre f post s El V. apply (face_step ni nj nk ffi pre f post s nf Hf El); [unfold nf; symmetry; apply face_list_len|exact V].
  - exists s. split; [exact Ef|]. split; [rewrite box_faces_iter; exact E|exact V].
Qed.
