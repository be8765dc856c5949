(** Partitioned weights. *)
From Coq Require Import List Arith ZArith Reals Lia Lra Bool.
From Coquelicot Require Import Coquelicot.
Import ListNotations.
Require Import Verif.Base Verif.RBase Verif.RSum Verif.Spec_Poly Verif.Spec_Quad Verif.Model_Quad Verif.Proof_Quad Verif.Proof_Quad2 Verif.Proof_Quad3 Verif.Proof_Quad4 Verif.Proof_Quad5 Verif.Proof_Quad6.
Local Open Scope nat_scope.

Lemma getu_of {A} (l : list (option A)) i v : nth_error l i = Some (Some v) -> getu l i = Ok v.
Proof. intros E. unfold getu. rewrite E. reflexivity. Qed.

Definition al1 (x w : nat -> R) : R := ((x 1%nat - x 0%nat - w 0%nat) / w 1%nat)%R.
Definition al2 (x w : nat -> R) : R := ((x 2%nat - x 0%nat - (w 0%nat + w 1%nat)) / w 2%nat)%R.

Lemma alphas_ok n x w nodes wts : 3 <= n -> holds_rule n x w nodes wts -> alphas wts nodes = Ok (al1 x w, al2 x w).
Proof.
  intros Hn (H & _ & N). unfold alphas.
  destruct (H 0) as [X0 W0], (H 1) as [X1 W1], (H 2) as [X2 W2]; try lia.
  rewrite (getu_of _ _ _ X0), (getu_of _ _ _ X1), (getu_of _ _ _ X2), (getu_of _ _ _ W0), (getu_of _ _ _ W1), (getu_of _ _ _ W2).
  cbn [bind]. rewrite rdiv_ok by (apply N; lia). cbn [bind]. rewrite rdiv_ok by (apply N; lia). reflexivity.
Qed.

Lemma alphas_short wts nodes r : length nodes < 3 \/ length wts < 3 -> alphas wts nodes <> Ok r.
Proof.
  intros H E. unfold alphas in E. repeat (apply bind_inv in E; destruct E as (? & ? & E)).
  assert (G : forall (l : list (option R)) i v, getu l i = Ok v -> i < length l).
  { intros l i v G. unfold getu in G. apply nth_error_Some. intros Hn. rewrite Hn in G. discriminate. }
  repeat match goal with h : getu _ _ = Ok _ |- _ => apply G in h end. lia.
Qed.

(** the entries written *)
Definition len_vals (p : nat) (x w : nat -> R) (i : nat) : R :=
  let a1 := al1 x w in let a2 := al2 x w in let w0 := w 0 in let w1 := w 1 in let w2 := w 2 in let w3 := w 3 in
  (match p with
   | 1 => nth i [1; 1] 0
   | 2 => nth i [w0 + a1 * w1; (1 - a1) * w1 + 1/2 * w2; (1 - a1) * w1 + 1/2 * w2; w0 + a1 * w1] 0
   | _ => nth i [w0 + a1 * w1; (1 - a1) * w1 + a2 * w2; (1 - a2) * w2 + 1/2 * w3; (1 - a2) * w2 + 1/2 * w3; (1 - a1) * w1 + a2 * w2; w0 + a1 * w1] 0
   end)%R.
Definition sub_vals (p : nat) (x w : nat -> R) (i : nat) : R :=
  let a1 := al1 x w in let a2 := al2 x w in let w0 := w 0 in let w1 := w 1 in let w2 := w 2 in let w3 := w 3 in
  (match p with
   | 1 => nth i [w0; 1/2 * w1; 1/2 * w1; w0] 0
   | 2 => nth i [w0; a1 * w1; (1 - a1) * w1; 1/2 * w2; 1/2 * w2; (1 - a1) * w1; a1 * w1; w0] 0
   | _ => nth i [w0; a1 * w1; (1 - a1) * w1; a2 * w2; (1 - a2) * w2; 1/2 * w3; 1/2 * w3; (1 - a2) * w2; a2 * w2; (1 - a1) * w1; a1 * w1; w0] 0
   end)%R.

Ltac cp := unfold copy_entry; unfold getu at 1; look; eqbs; cbn [bind]; rewrite ?set_ok by lens_tac; cbn [bind].
Ltac wr := split; [lens_tac; reflexivity|]; intros i; look;
  match goal with |- context [i <? ?n] => destruct (Nat.ltb_spec i n) end;
  [do 12 (destruct i as [|i]; [cbn; reflexivity|try (exfalso; lia)])| eqbs; reflexivity].

Lemma length_weights_ok p x w nodes wts len : p = 1 \/ p = 2 \/ p = 3 -> holds_rule (2 * p + 1) x w nodes wts -> 2 * p <= length len ->
  exists len', length_weights len wts nodes (Z.of_nat p) = Ok len' /\ wrote (2 * p) (len_vals p x w) len len'.
Proof.
  intros Hp H L. unfold length_weights. rewrite (alphas_ok (2 * p + 1) x w nodes wts ltac:(lia) H). cbn [bind].
  destruct H as (H & _). destruct (H 0) as [X0 W0], (H 1) as [X1 W1], (H 2) as [X2 W2]; try lia.
  rewrite ?(getu_of _ _ _ W0), ?(getu_of _ _ _ W1), ?(getu_of _ _ _ W2).
  destruct Hp as [-> | [-> | ->]]; cbn [Z.of_nat Pos.of_succ_nat Pos.succ Z.eqb Pos.eqb bind].
  - do 2 run2. eexists. split; [reflexivity|]. wr.
  - do 2 run2. do 2 cp. eexists. split; [reflexivity|]. wr.
  - destruct (H 3) as [X3 W3]; [lia|]. rewrite ?(getu_of _ _ _ W3). cbn [bind]. do 3 run2. do 3 cp. eexists. split; [reflexivity|]. wr.
Qed.

Lemma sub_weights_ok p x w nodes wts sub : p = 1 \/ p = 2 \/ p = 3 -> holds_rule (2 * p + 1) x w nodes wts -> 4 * p <= length sub ->
  exists sub', sub_weights sub wts nodes (Z.of_nat p) = Ok sub' /\ wrote (4 * p) (sub_vals p x w) sub sub'.
Proof.
  intros Hp H L. unfold sub_weights. rewrite (alphas_ok (2 * p + 1) x w nodes wts ltac:(lia) H). cbn [bind].
  destruct H as (H & _). destruct (H 0) as [X0 W0], (H 1) as [X1 W1], (H 2) as [X2 W2]; try lia.
  rewrite ?(getu_of _ _ _ W0), ?(getu_of _ _ _ W1), ?(getu_of _ _ _ W2).
  destruct Hp as [-> | [-> | ->]]; cbn [Z.of_nat Pos.of_succ_nat Pos.succ Z.eqb Pos.eqb bind].
  - do 2 run2. do 2 cp. eexists. split; [reflexivity|]. wr.
  - do 4 run2. do 4 cp. eexists. split; [reflexivity|]. wr.
  - destruct (H 3) as [X3 W3]; [lia|]. rewrite ?(getu_of _ _ _ W3). cbn [bind]. do 6 run2. do 6 cp. eexists. split; [reflexivity|]. wr.
Qed.

Lemma other_orders p x w n nodes wts len sub : 3 <= n -> holds_rule n x w nodes wts -> (p < 0 \/ 3 < p)%Z ->
  length_weights len wts nodes p = Ok len /\ sub_weights sub wts nodes p = Ok sub.
Proof.
  intros Hn H Hp. unfold length_weights, sub_weights. rewrite (alphas_ok _ _ _ _ _ Hn H). cbn [bind].
  replace (p =? 0)%Z with false by (symmetry; apply Z.eqb_neq; lia). replace (p =? 1)%Z with false by (symmetry; apply Z.eqb_neq; lia).
  replace (p =? 2)%Z with false by (symmetry; apply Z.eqb_neq; lia). replace (p =? 3)%Z with false by (symmetry; apply Z.eqb_neq; lia). split; reflexivity.
Qed.

Lemma short_fails p len sub nodes wts r : length nodes < 3 \/ length wts < 3 ->
  length_weights len wts nodes p <> Ok r /\ sub_weights sub wts nodes p <> Ok r.
Proof.
  intros H. split; intros E; unfold length_weights, sub_weights in E; apply bind_inv in E; destruct E as (a & E & _); exact (alphas_short _ _ _ H E).
Qed.

(** * what the values mean *)
Lemma al1_w n x w nodes wts : 3 <= n -> holds_rule n x w nodes wts -> (al1 x w * w 1%nat = x 1%nat - x 0%nat - w 0%nat)%R.
Proof. intros Hn (_ & _ & N). unfold al1. field. apply N. lia. Qed.
Lemma al2_w n x w nodes wts : 3 <= n -> holds_rule n x w nodes wts -> (al2 x w * w 2%nat = x 2%nat - x 0%nat - (w 0%nat + w 1%nat))%R.
Proof. intros Hn (_ & _ & N). unfold al2. field. apply N. lia. Qed.


(** an edge length is exact or off by half of the defect *)
Lemma half_def D e : (e = 0 \/ e = D / 2 -> Rabs e <= Rabs D / 2)%R.
Proof.
  intros [-> | ->]; [rewrite Rabs_R0; pose proof (Rabs_pos D); lra|]. unfold Rdiv. rewrite Rabs_mult, (Rabs_right (/ 2)) by lra. lra.
Qed.

Ltac edge := apply half_def; first [left; lra | right; cbn; lra].
Lemma len_meaning p x w nodes wts : p = 2 \/ p = 3 -> holds_rule (2 * p + 1) x w nodes wts ->
  forall i, i < 2 * p -> (Rabs (len_vals p x w i - (x (S i) - x i)) <= defect (2 * p + 1) x w / 2)%R.
Proof.
  intros Hp H. pose proof (al1_w (2 * p + 1) _ _ _ _ ltac:(lia) H) as A1. pose proof (al2_w (2 * p + 1) _ _ _ _ ltac:(lia) H) as A2.
  destruct H as (_ & Sy & _). destruct Hp as [-> | ->]; cbn [Nat.mul Nat.add Nat.sub] in *.
  - destruct (Sy 0), (Sy 1), (Sy 2); try lia. cbn in *.
    intros i Hi. do 4 (destruct i as [|i]; [unfold len_vals, defect; cbn; edge|]). lia.
  - destruct (Sy 0), (Sy 1), (Sy 2), (Sy 3); try lia. cbn in *.
    intros i Hi. do 6 (destruct i as [|i]; [unfold len_vals, defect; cbn; edge|]). lia.
Qed.

Lemma sub_meaning p x w nodes wts : p = 1 \/ p = 2 \/ p = 3 -> holds_rule (2 * p + 1) x w nodes wts -> splits p (defect (2 * p + 1) x w / 2) x w (sub_vals p x w).
Proof.
  intros Hp H. pose proof (al1_w (2 * p + 1) _ _ _ _ ltac:(lia) H) as A1. pose proof (al2_w (2 * p + 1) _ _ _ _ ltac:(lia) H) as A2.
  destruct H as (_ & Sy & _). destruct Hp as [-> | [-> | ->]]; cbn [Nat.mul Nat.add Nat.sub] in *.
  - destruct (Sy 0), (Sy 1); try lia. cbn in *. unfold splits, sub_vals. cbn. repeat split; try lra.
    + intros i Hi. do 2 (destruct i as [|i]; [try lia; cbn; lra|]). lia.
    + intros i Hi. do 2 (destruct i as [|i]; [try lia; unfold defect; cbn; edge|]). lia.
  - destruct (Sy 0), (Sy 1), (Sy 2); try lia. cbn in *. unfold splits, sub_vals. cbn. repeat split; try lra.
    + intros i Hi. do 4 (destruct i as [|i]; [try lia; cbn; lra|]). lia.
    + intros i Hi. do 4 (destruct i as [|i]; [try lia; unfold defect; cbn; edge|]). lia.
  - destruct (Sy 0), (Sy 1), (Sy 2), (Sy 3); try lia. cbn in *. unfold splits, sub_vals. cbn. repeat split; try lra.
    + intros i Hi. do 6 (destruct i as [|i]; [try lia; cbn; lra|]). lia.
    + intros i Hi. do 6 (destruct i as [|i]; [try lia; unfold defect; cbn; edge|]). lia.
Qed.

(** * the whole setup for the tables of the code *)
Lemma nth_wrote n v a a' i : wrote n v a a' -> i < n -> nth_error a' i = Some (Some (v i)).
Proof. intros [_ W] H. rewrite W. destruct (Nat.ltb_spec i n); [reflexivity|lia]. Qed.

Lemma rule_total n deg tol x w : quad_rule n deg tol x w -> (Rabs (rsum n w - 2) <= tol)%R.
Proof.
  intros H. pose proof (rule_moments _ _ _ _ _ H 0 ltac:(lia)) as M. cbv beta in M.
  rewrite (rsum_ext n _ w) in M by (intros i _; cbn; ring).
  replace (mom 0) with 2%R in M by (unfold mom; cbn; field). exact M.
Qed.

Lemma lob_x0 p : 1 <= p <= 3 -> nth 0 (lobatto_nodes_tab (Z.of_nat (2 * p + 1))) 0%R = (-1)%R.
Proof. intros H. assert (p = 1 \/ p = 2 \/ p = 3) as [-> | [-> | ->]] by lia; cbn; unfold dec; cbn; lra. Qed.
Lemma lob_3 : nth 1 (lobatto_nodes_tab 3) 0%R = 0%R /\ nth 2 (lobatto_nodes_tab 3) 0%R = 1%R.
Proof. split; cbn; unfold dec; cbn; lra. Qed.

Lemma d30 m : dec m 30 = (IZR m / 1000000000000000000000000000000)%R.
Proof. unfold dec. reflexivity. Qed.
Lemma d29 m : dec m 29 = (IZR m / 100000000000000000000000000000)%R.
Proof. unfold dec. reflexivity. Qed.
Lemma d0 m : dec m 0 = IZR m.
Proof. unfold dec. cbn. field. Qed.

Lemma sub_pos p i : 1 <= p <= 3 -> i < 4 * p ->
  (0 < sub_vals p (fun i => nth i (lobatto_nodes_tab (Z.of_nat (2 * p + 1))) 0) (fun i => nth i (lobatto_weights_tab (Z.of_nat (2 * p + 1))) 0) i)%R.
Proof.
  intros Hp Hi. assert (S : (4.5 < sqrt 21 < 4.6)%R).
  { pose proof (sqrt_pos 21). pose proof (sqrt_sqrt 21 ltac:(lra)). split; nra. }
  assert (A : forall a b : R, (0 < b)%R -> (a / b * b)%R = a) by (intros; field; lra).
  assert (B : forall a b : R, (0 < b)%R -> ((1 - a / b) * b)%R = (b - a)%R) by (intros; field; lra).
  assert (p = 1 \/ p = 2 \/ p = 3) as [-> | [-> | ->]] by lia; unfold sub_vals, al1, al2.
  - change (Z.of_nat (2 * 1 + 1)) with 3%Z. cbn [nth lobatto_weights_tab].
    do 4 (destruct i as [|i]; [cbn [nth]; lra|]). lia.
  - change (Z.of_nat (2 * 2 + 1)) with 5%Z. cbn [nth lobatto_weights_tab lobatto_nodes_tab].
    do 8 (destruct i as [|i]; [cbn [nth]; rewrite ?A, ?B by lra; lra|]). lia.
  - change (Z.of_nat (2 * 3 + 1)) with 7%Z. cbn [nth lobatto_weights_tab lobatto_nodes_tab decs map fst snd].
    rewrite !d30, !d29, !d0.
    do 12 (destruct i as [|i]; [cbn [nth]; rewrite ?A, ?B by lra; lra|]). lia.
Qed.

Theorem set_nodes_wgts_ok p nodes wts len sub : 1 <= p <= 3 ->
  2 * p + 1 <= length nodes -> 2 * p + 1 <= length wts -> 2 * p <= length len -> 4 * p <= length sub ->
  exists nodes' wts' len' sub' x w l s,
    set_nodes_wgts nodes wts len sub (Z.of_nat p) = Ok (nodes', wts', len', sub') /\
    wrote (2 * p + 1) x nodes nodes' /\ wrote (2 * p + 1) w wts wts' /\ wrote (2 * p) l len len' /\ wrote (4 * p) s sub sub' /\
    quad_rule (2 * p + 1) (4 * p - 1) (lobatto_tol (2 * p + 1)) x w /\ increasing (2 * p + 1) x /\
    (forall i, i < 2 * p -> (Rabs (l i - (x (S i) - x i)) <= lobatto_tol (2 * p + 1) / 2)%R) /\
    splits p (lobatto_tol (2 * p + 1) / 2) x w s /\ (forall i, i < 4 * p -> (0 < s i)%R).
Proof.
  intros Hp Ln Lw Ll Ls. set (n := 2 * p + 1).
  destruct (lobatto_rule n) as (Lx & Lw' & Inc & Q); [unfold n; lia|].
  set (x := fun i => nth i (lobatto_nodes_tab (Z.of_nat n)) 0%R) in *. set (w := fun i => nth i (lobatto_weights_tab (Z.of_nat n)) 0%R) in *.
  destruct (stores_wrote n wts _ Lw') as (wts' & Ew & Ww); [exact Lw|].
  destruct (stores_wrote n nodes _ Lx) as (nodes' & Ex & Wx); [exact Ln|].
  fold x in Wx. fold w in Ww.
  assert (H : holds_rule n x w nodes' wts').
  { split; [|split].
    - intros i Hi. split; eapply nth_wrote; eassumption.
    - intros i Hi. apply (q_symmetric _ _ _ _ _ Q i Hi).
    - intros i Hi E. pose proof (q_positive _ _ _ _ _ Q i Hi). lra. }
  assert (P3 : p = 1 \/ p = 2 \/ p = 3) by lia.
  destruct (length_weights_ok p x w nodes' wts' len P3 H Ll) as (len' & El & Wl).
  destruct (sub_weights_ok p x w nodes' wts' sub P3 H Ls) as (sub' & Es & Ws).
  assert (X0 : x 0 = (-1)%R) by (apply lob_x0; exact Hp).
  assert (D : (defect n x w <= lobatto_tol n)%R).
  { unfold defect. destruct (q_symmetric _ _ _ _ _ Q 0 ltac:(unfold n; lia)) as [Y _]. rewrite Nat.sub_0_r in Y. rewrite Y, X0.
    replace (- -1 - -1)%R with 2%R by lra. exact (rule_total _ _ _ _ _ Q). }
  exists nodes', wts', len', sub', x, w, (len_vals p x w), (sub_vals p x w).
  assert (En : (2 * Z.of_nat p + 1)%Z = Z.of_nat n) by (unfold n; lia).
  split; [unfold set_nodes_wgts, lobatto_weights_1D, lobatto_nodes_1D; cbv zeta; rewrite En, Ew; cbn [bind]; rewrite Ex; cbn [bind]; rewrite El; cbn [bind]; rewrite Es; reflexivity|].
  split; [exact Wx|]. split; [exact Ww|]. split; [exact Wl|]. split; [exact Ws|].
  split; [|split; [exact Inc|split; [|split]]].
  - replace (4 * p - 1) with (lobatto_degree n); [exact Q|]. unfold lobatto_degree, n. destruct (Nat.eqb_spec (2 * p + 1) 1); lia.
  - intros i Hi. destruct (Nat.eq_dec p 1) as [->|N].
    + destruct lob_3 as [X1 X2]. fold (x 1) (x 2) in X1, X2. change (nth 1 (lobatto_nodes_tab 3) 0%R) with (x 1) in X1. change (nth 2 (lobatto_nodes_tab 3) 0%R) with (x 2) in X2.
      replace (lobatto_tol n / 2)%R with 0%R by (unfold lobatto_tol, n; cbn; lra).
      assert (Z : forall e, e = 0%R -> (Rabs e <= 0)%R) by (intros e ->; rewrite Rabs_R0; lra).
      destruct i as [|[|i]]; [| |lia]; unfold len_vals; cbn [nth]; apply Z; rewrite ?X0, ?X1, ?X2; lra.
    + eapply Rle_trans; [apply (len_meaning p x w nodes' wts' ltac:(lia) H i Hi)|]. fold n. lra.
  - destruct (sub_meaning p x w nodes' wts' P3 H) as (A & B & C & E & F). split; [exact A|]. split; [exact B|]. split; [exact C|]. split; [|exact F].
    intros i Hi. eapply Rle_trans; [apply E; exact Hi|]. fold n. lra.
  - intros i Hi. apply sub_pos; assumption.
Qed.

(** the orders the mesh set-up calls it with but that the two partitions do not know *)
Theorem set_nodes_wgts_high p nodes wts len sub : 4 <= p <= 9 -> 2 * p + 1 <= length nodes -> 2 * p + 1 <= length wts ->
  exists nodes' wts' x w,
    set_nodes_wgts nodes wts len sub (Z.of_nat p) = Ok (nodes', wts', len, sub) /\
    wrote (2 * p + 1) x nodes nodes' /\ wrote (2 * p + 1) w wts wts' /\
    quad_rule (2 * p + 1) (4 * p - 1) (lobatto_tol (2 * p + 1)) x w /\ increasing (2 * p + 1) x.
Proof.
  intros Hp Ln Lw. set (n := 2 * p + 1).
  destruct (lobatto_rule n) as (Lx & Lw' & Inc & Q); [unfold n; lia|].
  destruct (stores_wrote n wts _ Lw') as (wts' & Ew & Ww); [exact Lw|].
  destruct (stores_wrote n nodes _ Lx) as (nodes' & Ex & Wx); [exact Ln|].
  match type of Q with quad_rule _ _ _ ?x ?w => set (X := x) in *; set (W := w) in * end.
  assert (H : holds_rule n X W nodes' wts').
  { split; [|split].
    - intros i Hi. split; eapply nth_wrote; eassumption.
    - intros i Hi. apply (q_symmetric _ _ _ _ _ Q i Hi).
    - intros i Hi E. pose proof (q_positive _ _ _ _ _ Q i Hi). lra. }
  destruct (other_orders (Z.of_nat p) X W n nodes' wts' len sub) as [El Es]; [unfold n; lia|exact H|lia|].
  exists nodes', wts', X, W. assert (En : (2 * Z.of_nat p + 1)%Z = Z.of_nat n) by (unfold n; lia).
  split; [unfold set_nodes_wgts, lobatto_weights_1D, lobatto_nodes_1D; cbv zeta; rewrite En, Ew; cbn [bind]; rewrite Ex; cbn [bind]; rewrite El; cbn [bind]; rewrite Es; reflexivity|].
  split; [exact Wx|]. split; [exact Ww|]. split; [|exact Inc].
  replace (4 * p - 1) with (lobatto_degree n); [exact Q|]. unfold lobatto_degree, n. destruct (Nat.eqb_spec (2 * p + 1) 1); lia.
Qed.

(** with tables of one or two entries the call fails whatever the order *)
Lemma stores_len vs : forall a i a', stores a i vs = Ok a' -> length a' = length a.
Proof.
  induction vs as [|v vs IH]; intros a i a' E; cbn [stores] in E; [inversion E; reflexivity|].
  apply bind_inv in E. destruct E as (b & Eb & E). rewrite (IH _ _ _ E). exact (set_len _ _ _ _ Eb).
Qed.
Theorem set_nodes_wgts_short p nodes wts len sub r : length nodes < 3 \/ length wts < 3 -> set_nodes_wgts nodes wts len sub p <> Ok r.
Proof.
  intros H E. unfold set_nodes_wgts in E. cbv zeta in E.
  apply bind_inv in E. destruct E as (w' & Ew & E). apply bind_inv in E. destruct E as (x' & Ex & E). apply bind_inv in E. destruct E as (l' & El & _).
  apply stores_len in Ew. apply stores_len in Ex. destruct (short_fails p len [] x' w' l') as [F _]; [lia|]. exact (F El).
Qed.
