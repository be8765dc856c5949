(** The half-annulus mesh. *)
From Coq Require Import Reals List Arith NArith ZArith Lra Lia Bool.
Import ListNotations.
Require Import Verif.Base Verif.RBase Verif.NatSum Verif.Model_Lagrange Verif.Model_Points Verif.Model_Vtk Verif.Model_High Verif.Model_Annulus Verif.Spec_Vtk Verif.Spec_High Verif.Spec_Annulus.
Require Import Verif.Proof_Ref Verif.Proof_Box Verif.Proof_Vtk.
Local Open Scope nat_scope.

(** nested loops, first index fastest *)
Lemma nest3 {S} (P : nat -> S -> Prop) ni nj nk (body : nat -> nat -> nat -> S -> res S) s0 : 0 < ni -> 0 < nj ->
  P 0 s0 -> (forall i j k s, i < ni -> j < nj -> k < nk -> P (i + (j + k * nj) * ni) s -> exists s', body k j i s = Ok s' /\ P (Datatypes.S (i + (j + k * nj) * ni)) s') ->
  exists s, loop nk (fun k s => loop nj (fun j s => loop ni (fun i s => body k j i s) s) s) s0 = Ok s /\ P (nk * nj * ni) s.
Proof.
  intros Hi Hj H0 Hs. rewrite loop3. apply loop_inv; [exact H0|]. intros q s Hq HP.
  assert (Hq1 : q / ni < nk * nj) by (apply Nat.div_lt_upper_bound; lia).
  assert (E : q = q mod ni + (q / ni mod nj + q / ni / nj * nj) * ni).
  { assert (A := Nat.div_mod q ni ltac:(lia)). assert (B := Nat.div_mod (q / ni) nj ltac:(lia)). nia. }
  rewrite E in HP. destruct (Hs (q mod ni) (q / ni mod nj) (q / ni / nj) s) as (s' & Es & HP').
  - apply Nat.mod_upper_bound; lia.
  - apply Nat.mod_upper_bound; lia.
  - apply Nat.div_lt_upper_bound; lia.
  - exact HP.
  - exists s'. split; [exact Es|]. rewrite <- E in HP'. exact HP'.
Qed.

Lemma point_ok mpi p e i j k : 1 <= p -> annular_point (p + 1) (INR e * (1 / 2 * mpi)) ((INR e + 1) * (1 / 2 * mpi)) i j k = Ok (ann_pos mpi p e i j k 0, ann_pos mpi p e i j k 1, ann_pos mpi p e i j k 2).
Proof.
  intros Hp. unfold annular_point. replace (p + 1 - 1) with p by lia. assert (P : (INR p <> 0)%R) by (apply not_0_INR; lia).
  rewrite !rdiv_ok by exact P. cbn [bind].
  replace (INR e * (1 / 2 * mpi) + INR i * ((INR e + 1) * (1 / 2 * mpi) - INR e * (1 / 2 * mpi)) / INR p)%R with (ann_theta mpi p e i) by (unfold ann_theta; field; exact P).
  replace (1 / 2 + INR j * (5 / 2 - 1 / 2) / INR p)%R with (ann_r p j) by (unfold ann_r; field; exact P).
  reflexivity.
Qed.

(** * state of the arrays *)
(** vertex number n, in the order of creation *)
Definition cpos (mpi : R) (p n d : nat) : R :=
  let N := p + 1 in
  if n <? N * N * N then ann_pos mpi p 0 (n mod N) (n / N mod N) (n / N / N) d
  else let u := n - N * N * N in ann_pos mpi p 1 (u mod p + 1) (u / p mod N) (u / p / N) d.
Definition crd_upto (mpi : R) (p nn c : nat) (crd : list (option R)) : Prop :=
  length crd = nn * 3 /\ forall n d, n < nn -> d < 3 -> nth_error crd (n * 3 + d) = Some (if n <? c then Some (cpos mpi p n d) else None).

Lemma upd_same {A} (l : list A) i x : i < length l -> nth_error (upd l i x) i = Some x.
Proof. intros H. rewrite upd_nth by exact H. rewrite Nat.eqb_refl. reflexivity. Qed.
Lemma upd_diff {A} (l : list A) i k x : i <> k -> i < length l -> nth_error (upd l i x) k = nth_error l k.
Proof. intros H L. rewrite upd_nth by exact L. destruct (Nat.eqb_spec k i); [congruence|reflexivity]. Qed.

Lemma put_ok mpi p nn c crd : crd_upto mpi p nn c crd -> c < nn ->
  exists crd', put_node crd c (cpos mpi p c 0, cpos mpi p c 1, cpos mpi p c 2) = Ok crd' /\ crd_upto mpi p nn (S c) crd'.
Proof.
  intros (L & H) Hc. unfold put_node. rewrite set_ok by lia. cbn [bind]. rewrite set_ok by (rewrite upd_length; lia). cbn [bind].
  rewrite set_ok by (rewrite !upd_length; lia). eexists. split; [reflexivity|]. split; [rewrite !upd_length; exact L|].
  intros n d Hn Hd. assert (D : d = 0 \/ d = 1 \/ d = 2) by lia.
  destruct (Nat.eq_dec n c) as [->|].
  - destruct (Nat.ltb_spec c (S c)); [|lia]. destruct D as [-> | [-> | ->]].
    + rewrite !upd_diff by (rewrite ?upd_length; lia). apply upd_same. lia.
    + rewrite upd_diff by (rewrite ?upd_length; lia). apply upd_same. rewrite upd_length. lia.
    + apply upd_same. rewrite !upd_length. lia.
  - rewrite !upd_diff by (rewrite ?upd_length; destruct D as [-> | [-> | ->]]; lia). rewrite H by assumption. destruct (Nat.ltb_spec n c), (Nat.ltb_spec n (S c)); try reflexivity; lia.
Qed.

(** connectivity while the first element is filled: c vertices done *)
Definition want1 (p c e v : nat) : option nat :=
  match e with
  | 0 => if v <? c then Some v else None
  | _ => if (v mod (p + 1) =? 0) && (v + p <? c) then Some (v + p) else None
  end.
(** ... and the second: t of its own vertices done *)
Definition node1 (p v : nat) : nat :=
  let N := p + 1 in if v mod N =? 0 then v + p else N * N * N + (v mod N - 1 + v / N * p).
Definition want2 (p t e v : nat) : option nat :=
  let N := p + 1 in
  if v <? N * N * N then match e with 0 => Some v | _ => if (v mod N =? 0) || (v mod N - 1 + v / N * p <? t) then Some (node1 p v) else None end else None.
Definition con_is (w : nat) (f : nat -> nat -> option nat) (con : list (option nat)) : Prop :=
  length con = 2 * w /\ forall e v, e < 2 -> v < w -> nth_error con (e * w + v) = Some (f e v).

Lemma con_set w f f' con e v x : con_is w f con -> e < 2 -> v < w ->
  (forall e' v', e' < 2 -> v' < w -> f' e' v' = if (e' =? e) && (v' =? v) then x else f e' v') ->
  exists con', set con (e * w + v) x = Ok con' /\ con_is w f' con'.
Proof.
  intros (L & H) He Hv F. rewrite set_ok by nia. eexists. split; [reflexivity|]. split; [rewrite upd_length; exact L|].
  intros e' v' He' Hv'. rewrite F by assumption. destruct (Nat.eqb_spec e' e) as [->|], (Nat.eqb_spec v' v) as [->|]; cbn [andb].
  - apply upd_same. nia.
  - rewrite upd_diff by nia. auto.
  - rewrite upd_diff by (assert (e = 0 /\ e' = 1 \/ e = 1 /\ e' = 0) by lia; nia). auto.
  - rewrite upd_diff by (assert (e = 0 /\ e' = 1 \/ e = 1 /\ e' = 0) by lia; nia). auto.
Qed.
Lemma con_ext w f f' con : con_is w f con -> (forall e v, e < 2 -> v < w -> f e v = f' e v) -> con_is w f' con.
Proof. intros (L & H) E. split; [exact L|]. intros. rewrite <- E by assumption. auto. Qed.

Lemma mod_add_l a b n : a < n -> (a + b * n) mod n = a.
Proof. intros H. rewrite Nat.mod_add by lia. apply Nat.mod_small. exact H. Qed.
Lemma div_add_l a b n : a < n -> (a + b * n) / n = b.
Proof. intros H. rewrite Nat.div_add by lia. rewrite Nat.div_small by exact H. lia. Qed.

Lemma first_ok mpi p w nn crd con : let N := p + 1 in 1 <= p -> N * N * N <= w -> N * N * N <= nn ->
  crd_upto mpi p nn 0 crd -> con_is w (fun _ _ => None) con ->
  exists crd' con', first_element mpi N w (crd, con, 0) = Ok (crd', con', N * N * N) /\ crd_upto mpi p nn (N * N * N) crd' /\ con_is w (want1 p (N * N * N)) con'.
Proof.
  intros N Hp Hw Hn Hc Hk. unfold first_element.
  set (body := fun k j i => first_vertex mpi N w k j i).
  edestruct (nest3 (fun c (s : list (option R) * list (option nat) * nat) => let '(crd, con, cnt) := s in crd_upto mpi p nn c crd /\ con_is w (want1 p c) con /\ cnt = c) N N N body (crd, con, 0)) as (s & Es & Hs).
  - unfold N; lia.
  - unfold N; lia.
  - split; [exact Hc|]. split; [|reflexivity]. apply (con_ext _ _ _ _ Hk). intros e v _ _. unfold want1. destruct e; [reflexivity|]. destruct (Nat.ltb_spec (v + p) 0); [lia|]. rewrite andb_false_r. reflexivity.
  - intros i j k ((crd1, con1), cnt) Hi Hj Hk' (C1 & K1 & ->). set (c := i + (j + k * N) * N) in *.
    assert (Hcn : c < N * N * N) by (unfold c; nia).
    unfold body, first_vertex. replace (annular_point N 0 (1 / 2 * mpi) i j k) with (annular_point (p + 1) (INR 0 * (1 / 2 * mpi)) ((INR 0 + 1) * (1 / 2 * mpi)) i j k) by (cbn [INR]; f_equal; ring).
    rewrite point_ok by exact Hp. cbn [bind].
    assert (Ep : forall d, ann_pos mpi p 0 i j k d = cpos mpi p c d).
    { intros d. unfold cpos. cbv zeta. fold N. destruct (Nat.ltb_spec c (N * N * N)); [|lia]. unfold c. rewrite mod_add_l, div_add_l by exact Hi. rewrite mod_add_l, div_add_l by exact Hj. reflexivity. }
    rewrite !Ep. destruct (put_ok mpi p nn c crd1 C1 ltac:(lia)) as (crd2 & -> & C2). cbn [bind].
    replace (i + j * N + k * N * N) with c by (unfold c; ring). assert (Mc : c mod N = i) by (unfold c; apply mod_add_l; exact Hi).
    destruct (con_set w (want1 p c) (fun e v => match e with 0 => want1 p (S c) 0 v | _ => want1 p c e v end) con1 0 c (Some c) K1 ltac:(lia) ltac:(lia)) as (con2 & -> & K2).
    { intros e v He Hv. destruct e as [|[|e]]; [|reflexivity|lia]. cbn [Nat.eqb andb want1]. destruct (Nat.eqb_spec v c) as [->|].
      - destruct (Nat.ltb_spec c (S c)); [reflexivity|lia].
      - destruct (Nat.ltb_spec v (S c)), (Nat.ltb_spec v c); try reflexivity; lia. }
    cbn [bind]. destruct (Nat.eqb_spec i (N - 1)) as [Ei|Ei].
    + destruct (con_set w _ (want1 p (S c)) con2 1 (c - i) (Some c) K2 ltac:(lia) ltac:(lia)) as (con3 & -> & K3).
      { intros e v He Hv. destruct e as [|[|e]]; [reflexivity| |lia]. cbn [Nat.eqb andb want1]. fold N.
        assert (Ec : c - i = (j + k * N) * N) by (unfold c; lia).
        destruct (Nat.eqb_spec v (c - i)) as [->|Nv].
        - rewrite Ec at 1. rewrite Nat.mod_mul by (unfold N; lia). cbn [Nat.eqb andb]. assert (Q : c - i + p = c) by (unfold N in Ei; unfold c; lia). rewrite Q. destruct (Nat.ltb_spec c (S c)); [reflexivity|lia].
        - destruct (Nat.eqb_spec (v mod N) 0); [cbn [andb]|reflexivity]. destruct (Nat.ltb_spec (v + p) (S c)), (Nat.ltb_spec (v + p) c); try reflexivity; try lia. }
      cbn [bind]. eexists. split; [reflexivity|]. cbn beta iota. split; [exact C2|]. split; [exact K3|lia].
    + cbn [bind]. eexists. split; [reflexivity|]. cbn beta iota. split; [exact C2|]. split; [|lia].
      apply (con_ext _ _ _ _ K2). intros e v He Hv. destruct e as [|[|e]]; [reflexivity| |lia]. cbn [want1]. fold N.
      destruct (Nat.eqb_spec (v mod N) 0) as [M|]; [cbn [andb]|reflexivity]. destruct (Nat.ltb_spec (v + p) (S c)), (Nat.ltb_spec (v + p) c); try reflexivity; try lia.
      exfalso. assert (Q : c = p + v / N * N) by (assert (D := Nat.div_mod v N ltac:(unfold N; lia)); lia).
      rewrite Q, mod_add_l in Mc by (unfold N; lia). unfold N in Ei. lia.
  - destruct s as ((crd', con'), cnt'). destruct Hs as (H1 & H2 & ->). exists crd', con'. auto.
Qed.

Lemma second_ok mpi p w nn crd con : let N := p + 1 in let Ne := N * N * N in 1 <= p -> Ne <= w -> Ne + N * N * p <= nn ->
  crd_upto mpi p nn Ne crd -> con_is w (want1 p Ne) con ->
  exists crd' con', second_element mpi N w (crd, con, Ne) = Ok (crd', con', Ne + N * N * p) /\ crd_upto mpi p nn (Ne + N * N * p) crd' /\ con_is w (want2 p (N * N * p)) con'.
Proof.
  intros N Ne Hp Hw Hn Hc Hk. unfold second_element. replace (N - 1) with p by (unfold N; lia).
  set (body := fun k j i => second_vertex mpi N w k j (i + 1)).
  edestruct (nest3 (fun c (s : list (option R) * list (option nat) * nat) => let '(crd, con, cnt) := s in crd_upto mpi p nn (Ne + c) crd /\ con_is w (want2 p c) con /\ cnt = Ne + c) p N N body (crd, con, Ne)) as (s & Es & Hs).
  - unfold N; lia.
  - unfold N; lia.
  - rewrite Nat.add_0_r. split; [exact Hc|]. split; [|reflexivity]. apply (con_ext _ _ _ _ Hk). intros e v _ _. unfold want1, want2, node1. cbv zeta. fold N. fold Ne. destruct e.
    + destruct (v <? Ne); reflexivity.
    + assert (D := Nat.div_mod v N ltac:(unfold N; lia)). destruct (Nat.eqb_spec (v mod N) 0) as [M|M]; cbn [andb orb].
      * destruct (Nat.ltb_spec (v + p) Ne), (Nat.ltb_spec v Ne); try reflexivity; try lia.
        exfalso. rewrite M in D. assert (v / N < N * N) by (apply Nat.div_lt_upper_bound; [unfold N; lia|unfold Ne in *; lia]). unfold Ne in *. unfold N in *. nia.
      * destruct (Nat.ltb_spec (v mod N - 1 + v / N * p) 0); [lia|]. destruct (v <? Ne); reflexivity.
  - intros i j k ((crd1, con1), cnt) Hi Hj Hk' (C1 & K1 & ->). set (c := i + (j + k * N) * p) in *.
    assert (Hcn : c < N * N * p) by (unfold c; nia).
    unfold body, second_vertex. replace (annular_point N (1 / 2 * mpi) mpi (i + 1) j k) with (annular_point (p + 1) (INR 1 * (1 / 2 * mpi)) ((INR 1 + 1) * (1 / 2 * mpi)) (i + 1) j k) by (cbn [INR]; f_equal; field).
    rewrite point_ok by exact Hp. cbn [bind].
    assert (Ep : forall d, ann_pos mpi p 1 (i + 1) j k d = cpos mpi p (Ne + c) d).
    { intros d. unfold cpos. cbv zeta. fold N. fold Ne. destruct (Nat.ltb_spec (Ne + c) Ne); [lia|]. replace (Ne + c - Ne) with c by lia. unfold c. rewrite mod_add_l, div_add_l by exact Hi. rewrite mod_add_l, div_add_l by exact Hj. reflexivity. }
    rewrite !Ep. destruct (put_ok mpi p nn (Ne + c) crd1 C1 ltac:(lia)) as (crd2 & -> & C2). cbn [bind].
    set (v0 := i + 1 + (j + k * N) * N). replace (i + 1 + j * N + k * N * N) with v0 by (unfold v0; ring).
    assert (Mv : v0 mod N = i + 1) by (unfold v0; apply mod_add_l; unfold N; lia). assert (Dv : v0 / N = j + k * N) by (unfold v0; apply div_add_l; unfold N; lia).
    assert (Lv : v0 < Ne) by (unfold v0, Ne, N in *; nia).
    destruct (con_set w (want2 p c) (want2 p (S c)) con1 1 v0 (Some (Ne + c)) K1 ltac:(lia) ltac:(lia)) as (con2 & -> & K2).
    { intros e v He Hv. destruct e as [|[|e]]; [reflexivity| |lia]. cbn [Nat.eqb andb]. unfold want2. cbv zeta. fold N. fold Ne. destruct (Nat.eqb_spec v v0) as [->|Nv].
      - destruct (Nat.ltb_spec v0 Ne); [|lia]. unfold node1. cbv zeta. fold N. rewrite Mv, Dv. replace (i + 1 - 1 + (j + k * N) * p) with c by (unfold c; lia).
        destruct (Nat.eqb_spec (i + 1) 0); [lia|]. destruct (Nat.ltb_spec c (S c)); [reflexivity|lia].
      - destruct (v <? Ne); [|reflexivity]. destruct (Nat.eqb_spec (v mod N) 0) as [|M]; [reflexivity|cbn [orb]].
        destruct (Nat.ltb_spec (v mod N - 1 + v / N * p) (S c)), (Nat.ltb_spec (v mod N - 1 + v / N * p) c); try reflexivity; try lia.
        exfalso. apply Nv. assert (Q : v mod N - 1 + v / N * p = c) by lia. assert (Lm := Nat.mod_upper_bound v N ltac:(unfold N; lia)).
        assert (Q1 : v mod N - 1 = i). { assert (T := f_equal (fun x => x mod p) Q). cbv beta in T. unfold c in T. rewrite !mod_add_l in T by (try exact Hi; assert (N = p + 1) by reflexivity; lia). exact T. }
        assert (Q2 : v / N = j + k * N). { assert (T := f_equal (fun x => x / p) Q). cbv beta in T. unfold c in T. rewrite !div_add_l in T by (try exact Hi; assert (N = p + 1) by reflexivity; lia). exact T. }
        assert (D := Nat.div_mod v N ltac:(unfold N; lia)). unfold v0. rewrite <- Q2. lia. }
    cbn [bind]. eexists. split; [reflexivity|]. cbn beta iota. replace (Ne + S c) with (S (Ne + c)) by lia. split; [exact C2|]. split; [exact K2|lia].
  - destruct s as ((crd', con'), cnt'). destruct Hs as (H1 & H2 & ->). exists crd', con'. auto.
Qed.

(** * the mesh *)
Definition anode (p e i j k : nat) : nat := let N := p + 1 in let v := i + (j + k * N) * N in match e with 0 => v | _ => node1 p v end.
Definition an_count (p : nat) : nat := let N := p + 1 in 2 * (N * N * N) - N * N.
Lemma an_count_eq p : let N := p + 1 in an_count p = N * N * N + N * N * p.
Proof. cbv zeta. unfold an_count. nia. Qed.

Lemma create_ok mpi p m0 : 1 <= p -> exists m, create_annular_mesh mpi p m0 = Ok m /\ m_order m = p /\ m_num_elems m = 2 /\ m_num_nodes m = an_count p /\
  num_verts p <= m_width m /\ crd_upto mpi p (an_count p) (an_count p) (m_coords m) /\ con_is (m_width m) (want2 p ((p + 1) * (p + 1) * p)) (m_conn m).
Proof.
  intros Hp. unfold create_annular_mesh. cbv zeta. set (N := p + 1). set (Ne := N * N * N).
  assert (Ec : Nat.pow N 3 * 2 - N * N = an_count p) by (unfold an_count; cbv zeta; fold N; cbn [Nat.pow]; lia). rewrite Ec.
  set (m := init_elements p 2 (init_nodes (an_count p) m0)).
  assert (W : num_verts p <= m_width m) by apply width_ge. unfold num_verts in W. fold N in W. fold Ne in W.
  assert (E := an_count_eq p). cbv zeta in E. fold N in E. fold Ne in E.
  destruct (first_ok mpi p (m_width m) (an_count p) (m_coords m) (m_conn m) Hp W ltac:(fold N; fold Ne; lia)) as (crd1 & con1 & E1 & C1 & K1).
  { split; [unfold m; cbn [init_elements init_nodes m_coords]; apply repeat_length|]. intros n d Hn Hd. unfold m. cbn [init_elements init_nodes m_coords]. rewrite nth_error_repeat by lia. reflexivity. }
  { split; [unfold m; cbn [init_elements init_nodes m_conn m_width]; apply repeat_length|]. intros e v He Hv. unfold m in *. cbn [init_elements init_nodes m_conn m_width] in *. rewrite nth_error_repeat by nia. reflexivity. }
  fold N in E1. fold Ne in E1. fold N in C1, K1. fold Ne in C1, K1. rewrite E1. cbn [bind].
  destruct (second_ok mpi p (m_width m) (an_count p) crd1 con1 Hp W ltac:(fold N; fold Ne; lia) C1 K1) as (crd2 & con2 & E2 & C2 & K2).
  fold N in E2. fold Ne in E2. rewrite E2. cbn [bind]. eexists. split; [reflexivity|]. cbn [m_order m_num_elems m_num_nodes m_width m_coords m_conn].
  fold N in C2, K2. fold Ne in C2. rewrite <- E in C2. repeat split; try assumption; try apply C2; try apply K2.
Qed.

Lemma vert_form p i j k : vert p i j k = i + (j + k * (p + 1)) * (p + 1).
Proof. unfold vert. ring. Qed.
Lemma vform_lt p i j k : i <= p -> j <= p -> k <= p -> i + (j + k * (p + 1)) * (p + 1) < (p + 1) * (p + 1) * (p + 1).
Proof. intros. nia. Qed.
Lemma node1_lt p v : 1 <= p -> v < (p + 1) * (p + 1) * (p + 1) -> node1 p v < an_count p.
Proof.
  intros Hp Hv. rewrite an_count_eq. unfold node1. cbv zeta. set (N := p + 1) in *. assert (EN : N = p + 1) by reflexivity. clearbody N.
  assert (D := Nat.div_mod v N ltac:(lia)). assert (Q : v / N < N * N) by (apply Nat.div_lt_upper_bound; lia). assert (M := Nat.mod_upper_bound v N ltac:(lia)).
  destruct (Nat.eqb_spec (v mod N) 0) as [Z|Z].
  - rewrite Z in D. assert (v / N + 1 <= N * N) by lia. nia.
  - nia.
Qed.

Lemma want2_full p e v : 1 <= p -> e < 2 -> v < (p + 1) * (p + 1) * (p + 1) -> want2 p ((p + 1) * (p + 1) * p) e v = Some (match e with 0 => v | _ => node1 p v end).
Proof.
  intros Hp He Hv. unfold want2. cbv zeta. set (N := p + 1) in *. assert (EN : N = p + 1) by reflexivity. destruct (Nat.ltb_spec v (N * N * N)); [|lia]. destruct e; [reflexivity|].
  assert (Q : v / N < N * N) by (apply Nat.div_lt_upper_bound; lia). assert (M := Nat.mod_upper_bound v N ltac:(lia)).
  destruct (Nat.eqb_spec (v mod N) 0); [reflexivity|]. cbn [orb]. destruct (Nat.ltb_spec (v mod N - 1 + v / N * p) (N * N * p)); [reflexivity|]. nia.
Qed.

(** positions *)
Lemma cpos_anode mpi p e i j k d : 1 <= p -> e < 2 -> i <= p -> j <= p -> k <= p -> cpos mpi p (anode p e i j k) d = ann_pos mpi p e i j k d.
Proof.
  intros Hp He Hi Hj Hk. unfold cpos, anode, node1. cbv zeta. set (N := p + 1) in *. assert (EN : N = p + 1) by reflexivity. clearbody N.
  set (v := i + (j + k * N) * N). assert (Lv : v < N * N * N) by (unfold v; nia).
  assert (Mv : v mod N = i) by (unfold v; apply mod_add_l; lia). assert (Dv : v / N = j + k * N) by (unfold v; apply div_add_l; lia).
  assert (Mj : (j + k * N) mod N = j) by (apply mod_add_l; lia). assert (Dj : (j + k * N) / N = k) by (apply div_add_l; lia).
  destruct e as [|[|e]]; [|clear He|lia].
  - destruct (Nat.ltb_spec v (N * N * N)); [|lia]. rewrite Mv, Dv, Mj, Dj. reflexivity.
  - rewrite Mv. destruct (Nat.eqb_spec i 0) as [->|Ni].
    + assert (Lp : v + p < N * N * N) by (unfold v; nia). destruct (Nat.ltb_spec (v + p) (N * N * N)); [|lia].
      replace (v + p) with (p + (j + k * N) * N) by (unfold v; lia). rewrite mod_add_l, div_add_l, Mj, Dj by lia.
      unfold ann_pos, ann_theta. replace (INR 0 + INR p / INR p)%R with (INR 1 + INR 0 / INR p)%R; [reflexivity|]. cbn [INR]. field. apply not_0_INR. lia.
    + rewrite Dv. destruct (Nat.ltb_spec (N * N * N + (i - 1 + (j + k * N) * p)) (N * N * N)); [lia|].
      replace (N * N * N + (i - 1 + (j + k * N) * p) - N * N * N) with (i - 1 + (j + k * N) * p) by lia.
      rewrite mod_add_l, div_add_l, Mj, Dj by lia. replace (i - 1 + 1) with i by lia. reflexivity.
Qed.

(** numbering *)
Lemma anode_onto p n : 1 <= p -> n < an_count p -> exists e i j k, e < 2 /\ i <= p /\ j <= p /\ k <= p /\ anode p e i j k = n.
Proof.
  intros Hp Hn. rewrite an_count_eq in Hn. unfold anode, node1. cbv zeta. set (N := p + 1) in *. assert (EN : N = p + 1) by reflexivity. clearbody N.
  destruct (Nat.lt_ge_cases n (N * N * N)) as [L|L].
  - exists 0, (n mod N), (n / N mod N), (n / N / N). assert (A := Nat.mod_upper_bound n N ltac:(lia)). assert (B := Nat.mod_upper_bound (n / N) N ltac:(lia)).
    assert (n / N < N * N) by (apply Nat.div_lt_upper_bound; lia). assert (n / N / N < N) by (apply Nat.div_lt_upper_bound; lia).
    assert (D := Nat.div_mod n N ltac:(lia)). assert (D' := Nat.div_mod (n / N) N ltac:(lia)).
    repeat split; try lia.
  - set (u := n - N * N * N). exists 1, (u mod p + 1), (u / p mod N), (u / p / N). assert (A := Nat.mod_upper_bound u p ltac:(lia)). assert (B := Nat.mod_upper_bound (u / p) N ltac:(lia)).
    assert (Hu : u < N * N * p) by (unfold u; lia).
    assert (u / p < N * N) by (apply Nat.div_lt_upper_bound; lia). assert (u / p / N < N) by (apply Nat.div_lt_upper_bound; lia).
    assert (D := Nat.div_mod u p ltac:(lia)). assert (D' := Nat.div_mod (u / p) N ltac:(lia)).
    repeat split; try lia. replace (u / p mod N + u / p / N * N) with (u / p) by lia.
    rewrite mod_add_l, div_add_l by lia. destruct (Nat.eqb_spec (u mod p + 1) 0); [lia|]. replace (u mod p + 1 - 1) with (u mod p) by lia. unfold u in *. lia.
Qed.
Lemma vform_inj N i j k i' j' k' : i < N -> j < N -> i' < N -> j' < N -> i + (j + k * N) * N = i' + (j' + k' * N) * N -> i = i' /\ j = j' /\ k = k'.
Proof.
  intros Hi Hj Hi' Hj' E. assert (A : i = i') by (rewrite <- (mod_add_l i (j + k * N) N), E by lia; apply mod_add_l; lia).
  assert (B : j + k * N = j' + k' * N) by (rewrite <- (div_add_l i (j + k * N) N), E by lia; apply div_add_l; lia).
  split; [exact A|]. split; [rewrite <- (mod_add_l j k N), B by lia; apply mod_add_l; lia|rewrite <- (div_add_l j k N), B by lia; apply div_add_l; lia].
Qed.
Lemma anode_inj p e i j k e' i' j' k' : 1 <= p -> e < 2 -> i <= p -> j <= p -> k <= p -> e' < 2 -> i' <= p -> j' <= p -> k' <= p ->
  (anode p e i j k = anode p e' i' j' k' <-> same_vertex p e i j k e' i' j' k').
Proof.
  intros Hp He Hi Hj Hk He' Hi' Hj' Hk'. unfold anode, node1, same_vertex. cbv zeta. set (N := p + 1) in *. assert (EN : N = p + 1) by reflexivity. clearbody N.
  set (v := i + (j + k * N) * N). set (v' := i' + (j' + k' * N) * N).
  assert (Lv : v < N * N * N) by (unfold v; nia). assert (Lv' : v' < N * N * N) by (unfold v'; nia).
  assert (Mv : v mod N = i) by (unfold v; apply mod_add_l; lia). assert (Dv : v / N = j + k * N) by (unfold v; apply div_add_l; lia).
  assert (Mv' : v' mod N = i') by (unfold v'; apply mod_add_l; lia). assert (Dv' : v' / N = j' + k' * N) by (unfold v'; apply div_add_l; lia).
  rewrite Mv, Mv', Dv, Dv'. assert (Ev : v = i + (j + k * N) * N) by reflexivity. assert (Ev' : v' = i' + (j' + k' * N) * N) by reflexivity. clearbody v v'. clear Mv Dv Mv' Dv'.
  assert (S0 : forall a b, a <= p -> b <= p -> a + (j + k * N) * N = b + (j' + k' * N) * N -> a = b /\ j = j' /\ k = k') by (intros a b Ha Hb; apply vform_inj; lia).
  destruct e as [|[|e]]; [| |lia]; destruct e' as [|[|e']]; try lia; clear He He'.
  - split; [intros E; rewrite Ev, Ev' in E; apply S0 in E; try lia|intros (-> & -> & [(_ & ->)|[(_ & _ & A & _)|(A & _)]]); lia].
  - destruct (Nat.eqb_spec i' 0) as [->|Ni'].
    + split.
      * intros E. destruct (S0 i p Hi ltac:(lia) ltac:(lia)) as (A & B & C). subst. auto 10.
      * intros (-> & -> & [(A & _)|[(_ & -> & _ & _)|(A & _)]]); [lia|lia|lia].
    + split; [intros E; exfalso; lia|]. intros (_ & _ & [(A & _)|[(_ & _ & _ & A)|(A & _)]]); lia.
  - destruct (Nat.eqb_spec i 0) as [->|Ni].
    + split.
      * intros E. destruct (S0 p i' ltac:(lia) Hi' ltac:(lia)) as (A & B & C). subst. auto 10.
      * intros (-> & -> & [(A & _)|[(A & _)|(_ & _ & _ & ->)]]); lia.
    + split; [intros E; exfalso; lia|]. intros (_ & _ & [(A & _)|[(A & _)|(_ & A & _)]]); lia.
  - destruct (Nat.eqb_spec i 0) as [->|Ni], (Nat.eqb_spec i' 0) as [->|Ni'].
    + split; [intros E; destruct (S0 0 0 ltac:(lia) ltac:(lia) ltac:(lia)) as (_ & A & B); auto|]. intros (-> & -> & _). lia.
    + split; [intros E; exfalso; assert (v + p < N * N * N) by (rewrite Ev; nia); lia|]. intros (_ & _ & [(_ & A)|[(A & _)|(_ & _ & A & _)]]); lia.
    + split; [intros E; exfalso; assert (v' + p < N * N * N) by (rewrite Ev'; nia); lia|]. intros (_ & _ & [(_ & A)|[(A & _)|(_ & _ & A & _)]]); lia.
    + split.
      * intros E. assert (E' : i - 1 + (j + k * N) * p = i' - 1 + (j' + k' * N) * p) by lia.
        assert (A : i - 1 = i' - 1) by (rewrite <- (mod_add_l (i - 1) (j + k * N) p), E' by lia; apply mod_add_l; lia).
        assert (B : j + k * N = j' + k' * N) by (rewrite <- (div_add_l (i - 1) (j + k * N) p), E' by lia; apply div_add_l; lia).
        destruct (S0 i i' Hi Hi') as (_ & C & D); [rewrite B; lia|]. split; [exact C|]. split; [exact D|]. left. split; [reflexivity|lia].
      * intros (-> & -> & [(_ & ->)|[(A & _)|(_ & _ & A & _)]]); [reflexivity|lia|lia].
Qed.
