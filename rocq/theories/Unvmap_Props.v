(** C80: operations across, or refusing, batching. *)
From Verif Require Export Unvmap_Model.
From Coq Require Import Lia.
Local Open Scope nat_scope.
Local Open Scope list_scope.

(** A choice of a lane at each level, within bounds. *)
Inductive lane : list (option nat) -> list nat -> Prop :=
| lane_nil : lane [] []
| lane_un ls b l : lane ls l -> lane (None :: ls) (b :: l)
| lane_at n ls b l : b < n -> lane ls l -> lane (Some n :: ls) (b :: l).
(** At levels where a value is not batched the lane does not matter. *)
Definition wf {A} (x : val A) : Prop :=
  forall i l b, nth i (levels x) (Some 0) = None -> length l = i -> forall l', den x (l ++ b :: l') = den x (l ++ 0 :: l').
(** [a] is an entry of [x] in some lane. *)
Definition occurs {A} (x : val A) (a : A) : Prop := exists l, lane (levels x) l /\ In a (den x l).

(** ** Proofs about levels *)
Definition wfd {A} (ls : list (option nat)) (d : list nat -> list A) : Prop := wf {| levels := ls; den := d |}.
Lemma wfd_tl {A} o ls (d : list nat -> list A) b : wfd (o :: ls) d -> wfd ls (fun l => d (b :: l)).
Proof. intros H i l c Hi Hl l'. cbn in *. apply (H (S i) (b :: l) c Hi). cbn. now f_equal. Qed.
Lemma wfd_un {A} ls (d : list nat -> list A) b l : wfd (None :: ls) d -> d (b :: l) = d (0 :: l).
Proof. intros H. exact (H 0 [] b eq_refl eq_refl l). Qed.
Lemma wfd_stacked {A} n m ls (d : list nat -> list A) : wfd (Some m :: ls) d -> wfd ls (stacked n d).
Proof.
  intros H i l c Hi Hl l'. cbn in *. unfold stacked. rewrite !flat_map_concat_map. f_equal. apply map_ext. intro b.
  apply (H (S i) (b :: l) c Hi). cbn. now f_equal.
Qed.
Fixpoint collect {A} (ls : list (option nat)) (d : list nat -> list A) : list A :=
  match ls with [] => d [] | None :: ls' => collect ls' (fun l => d (0 :: l)) | Some n :: ls' => collect ls' (stacked n d) end.
Lemma bind_collect {A B} (impl : list A -> res B) ls : forall d, bind_unvmap impl ls d = impl (collect ls d).
Proof. induction ls as [ | [ n | ] ls IH ]; intro d; cbn; [ reflexivity | apply IH | apply IH ]. Qed.
Lemma in_collect {A} (a : A) ls : forall d, wfd ls d -> In a (collect ls d) <-> exists l, lane ls l /\ In a (d l).
Proof.
  induction ls as [ | [ n | ] ls IH ]; intros d H; cbn [collect].
  - split; [ intro Ha; exists []; split; [ constructor | exact Ha ] | ]. intros (l & Hl & Ha). now inversion Hl; subst.
  - rewrite (IH _ (wfd_stacked _ _ _ _ H)). unfold stacked. split.
    + intros (l & Hl & Ha). apply in_flat_map in Ha as (b & Hb & Ha). apply in_seq in Hb. exists (b :: l). split; [ constructor; [ lia | exact Hl ] | exact Ha ].
    + intros (l & Hl & Ha). inversion Hl as [ | | ? ? b l' Hb Hl' ]; subst. exists l'. split; [ exact Hl' | ].
      apply in_flat_map. exists b. split; [ apply in_seq; lia | exact Ha ].
  - rewrite (IH _ (wfd_tl _ _ _ 0 H)). split.
    + intros (l & Hl & Ha). exists (0 :: l). split; [ now constructor | exact Ha ].
    + intros (l & Hl & Ha). inversion Hl as [ | ? b l' Hl' | ]; subst. exists l'. split; [ exact Hl' | ]. now rewrite <- (wfd_un _ d b l' H).
Qed.
Lemma wf_eta {A} (x : val A) : wf x -> wfd (levels x) (den x).
Proof. now destruct x. Qed.

Lemma map_repeat {A} (ls : list A) : map (fun _ => None) ls = @repeat (option nat) None (length ls).
Proof. induction ls as [ | o ls IH ]; cbn; [ reflexivity | now rewrite IH ]. Qed.

(** ** C80 *)
(** Under any nesting, the result is batched nowhere, and is that of all entries of all lanes of all levels. *)
Theorem C80_any : forall x : val bool, wf x -> exists r b, unvmap_any x = Ok r /\
  levels r = repeat None (length (levels x)) /\ (forall l, den r l = [b]) /\ (b = true <-> occurs x true).
Proof.
  intros x H. unfold unvmap_any, unvmap. rewrite bind_collect. cbn [bind]. do 2 eexists. split; [ reflexivity | ]. cbn [levels den].
  split; [ apply map_repeat | ]. split; [ reflexivity | ].
  rewrite existsb_exists. unfold occurs. rewrite <- (in_collect true (levels x) (den x) (wf_eta x H)). split.
  - intros (b & Hb & E). unfold id in E. now subst b.
  - intro Ht. now exists true.
Qed.
Print Assumptions C80_any.
(** [breakpoint_if] stops once if the predicate holds anywhere, and otherwise not at all; a plain [lax.cond] would refuse a batched predicate. *)
Theorem C80_breakpoint : forall x : val bool, wf x ->
  (occurs x true -> breakpoint_if x = Ok 1) /\ (~ occurs x true -> breakpoint_if x = Ok 0) /\
  ((exists n, In (Some n) (levels x)) -> cond_effect x 1 0 = Err NotImplementedError).
Proof.
  intros x H. destruct (C80_any x H) as (r & b & E & L & D & Hb). unfold breakpoint_if. rewrite E. cbn [bind].
  assert (C : cond_effect r 1 0 = Ok (if b then 1 else 0)).
  { unfold cond_effect. rewrite D, L. replace (existsb _ _) with false; [ reflexivity | ]. clear L. induction (length (levels x)) as [ | k IH ]; [ reflexivity | exact IH ]. }
  rewrite C. split; [ intro Ho; apply Hb in Ho; now rewrite Ho | ]. split; [ intro Ho; destruct b; [ destruct (Ho (proj1 Hb eq_refl)) | reflexivity ] | ].
  intros (n & Hn). unfold cond_effect. replace (existsb _ _) with true; [ reflexivity | ]. symmetry. apply existsb_exists. exists (Some n). now split.
Qed.
Print Assumptions C80_breakpoint.
Example C80_ex_breakpoint : breakpoint_if {| levels := [Some 2; None; Some 3]; den := fun l => [Nat.eqb (nth 2 l 0) 2] |} = Ok 1 /\
  breakpoint_if {| levels := [Some 2; None; Some 3]; den := fun l => [Nat.eqb (nth 2 l 0) 3] |} = Ok 0.
Proof. split; reflexivity. Qed.
Theorem C80_all : forall x : val bool, wf x -> exists r b, unvmap_all x = Ok r /\
  levels r = repeat None (length (levels x)) /\ (forall l, den r l = [b]) /\ (b = true <-> forall a, occurs x a -> a = true).
Proof.
  intros x H. unfold unvmap_all, unvmap. rewrite bind_collect. cbn [bind]. do 2 eexists. split; [ reflexivity | ]. cbn [levels den].
  split; [ apply map_repeat | ]. split; [ reflexivity | ].
  rewrite forallb_forall. unfold occurs. split; intros Ha a.
  - intro Hb. apply Ha. apply (in_collect a (levels x) (den x) (wf_eta x H)). exact Hb.
  - intro Hb. apply Ha. apply (in_collect a (levels x) (den x) (wf_eta x H)). exact Hb.
Qed.
Print Assumptions C80_all.
Lemma fold_max l : forall x, (forall a, In a (x :: l) -> (a <= fold_left Z.max l x)%Z) /\ In (fold_left Z.max l x) (x :: l).
Proof.
  induction l as [ | y l IH ]; intro x; cbn [fold_left].
  - split; [ intros a [ <- | [] ]; lia | now left ].
  - destruct (IH (Z.max x y)) as [H1 H2]. split.
    + intros a [ <- | [ <- | Ha ] ].
      * specialize (H1 _ (or_introl eq_refl)). lia.
      * specialize (H1 _ (or_introl eq_refl)). lia.
      * apply H1. now right.
    + destruct H2 as [ E | H2 ]; [ | right; now right ]. rewrite <- E. destruct (Z.max_spec x y) as [ [_ ->] | [_ ->] ]; [ right; now left | now left ].
Qed.
Theorem C80_max : forall x : val Z, wf x ->
  ((forall a, ~ occurs x a) -> unvmap_max x = Err ValueError) /\
  ((exists a, occurs x a) -> exists r m, unvmap_max x = Ok r /\ levels r = repeat None (length (levels x)) /\ (forall l, den r l = [m]) /\
     occurs x m /\ forall a, occurs x a -> (a <= m)%Z).
Proof.
  intros x H. assert (I : forall a, In a (collect (levels x) (den x)) <-> occurs x a) by (intro a; apply (in_collect a (levels x) (den x) (wf_eta x H))).
  unfold unvmap_max, unvmap. rewrite bind_collect. destruct (collect (levels x) (den x)) as [ | a l ] eqn:E; cbn [jnp_max bind].
  - split; [ reflexivity | ]. intros (a & Ha). apply I in Ha. destruct Ha.
  - split; [ intro Hn; exfalso; apply (Hn a), I; now left | ]. intros _. do 2 eexists. split; [ reflexivity | ]. cbn [levels den].
    split; [ apply map_repeat | ]. split; [ reflexivity | ]. destruct (fold_max l a) as [H1 H2].
    split; [ now apply I | ]. intros b Hb. apply H1, I, Hb.
Qed.
Print Assumptions C80_max.

(** *** [nonbatchable] *)
(** Without [allow_constant_across_batch]: batched values are refused, others are returned. *)
Theorem C80_refuses : forall x, wf x ->
  ((exists n, In (Some n) (levels x)) -> nonbatchable false x = Err ValueError) /\
  ((forall n, ~ In (Some n) (levels x)) -> exists r, nonbatchable false x = Ok r /\ levels r = levels x /\ forall l, lane (levels x) l -> den r l = den x l).
Proof.
  intros [ls d] H. unfold nonbatchable. cbn [levels den]. revert d H. induction ls as [ | [ n | ] ls IH ]; intros d H; cbn [bind_nonbatchable].
  - split; [ intros (n & []) | ]. intros _. eexists. split; [ reflexivity | ]. now split.
  - split; [ reflexivity | ]. intro Hn. destruct (Hn n). now left.
  - destruct (IH _ (wfd_tl _ _ _ 0 H)) as [IH1 IH2]. split.
    + intros (n & [ E | Hn ]); [ discriminate | ]. rewrite IH1 by now exists n. reflexivity.
    + intro Hn. destruct IH2 as (r & Er & El & Ed); [ intros n Hin; apply (Hn n); now right | ]. rewrite Er. cbn [bind].
      eexists. split; [ reflexivity | ]. cbn [levels den]. split; [ now rewrite El | ]. intros l Hl. inversion Hl as [ | ? b l' Hl' | ]; subst. cbn [tl].
      rewrite Ed by exact Hl'. symmetry. exact (wfd_un _ d b l' H).
Qed.
Print Assumptions C80_refuses.

(** With it: the innermost level at which the value is batched. *)
Fixpoint innermost (ls : list (option nat)) : option (nat * nat) :=
  match ls with [] => None | Some n :: _ => Some (0, n) | None :: ls' => match innermost ls' with Some (i, n) => Some (S i, n) | None => None end end.
Definition with_lane (i b : nat) (l : list nat) : list nat := firstn i l ++ b :: skipn (S i) l.
(** The value is finite and does not depend on the lane there. *)
Definition constant_at (x : val num) (i n : nat) : Prop :=
  forall l b, lane (levels x) l -> b < n -> den x (with_lane i b l) = den x l /\ forall a, In a (den x l) -> a <> NaN.
Definition same_length (x : val num) : Prop := exists m, forall l, lane (levels x) l -> length (den x l) = m.

Definition column (j : nat) (lanes : list (list num)) : list num := map (fun x => nth j x NaN) lanes.
Lemma reduce_length f m lanes : lanes <> [] -> (forall x, In x lanes -> length x = m) -> length (reduce_lanes f lanes) = m.
Proof.
  induction lanes as [ | x [ | y lanes ] IH ]; intros Hn H; [ contradiction | apply H; now left | ].
  cbn [reduce_lanes] in *. rewrite map_length, combine_length, IH; [ | discriminate | intros z Hz; apply H; now right ].
  rewrite (H x) by now left. apply Nat.min_id.
Qed.
Lemma reduce_nth f m lanes j x y : j < m -> (forall z, In z (x :: y :: lanes) -> length z = m) ->
  nth j (reduce_lanes f (x :: y :: lanes)) NaN = f (nth j x NaN) (nth j (reduce_lanes f (y :: lanes)) NaN).
Proof.
  intros Hj H. change (reduce_lanes f (x :: y :: lanes)) with (map (fun p => f (fst p) (snd p)) (List.combine x (reduce_lanes f (y :: lanes)))).
  assert (Hx : length x = m) by (apply H; now left).
  assert (Hy : length (reduce_lanes f (y :: lanes)) = m) by (apply reduce_length; [ discriminate | intros z Hz; apply H; now right ]).
  rewrite (nth_indep _ NaN (f NaN NaN)) by (rewrite map_length, combine_length; lia).
  change (f NaN NaN) with ((fun p => f (fst p) (snd p)) (NaN, NaN)). rewrite map_nth, combine_nth by lia. reflexivity.
Qed.
Lemma min_spec m lanes j z : j < m -> lanes <> [] -> (forall x, In x lanes -> length x = m) ->
  nth j (reduce_lanes num_min lanes) NaN = Fin z -> forall x, In x lanes -> exists y, nth j x NaN = Fin y /\ (z <= y)%Z.
Proof.
  intros Hj. revert z. induction lanes as [ | x [ | y lanes ] IH ]; intros z Hn H E w Hw; [ contradiction | | ].
  - destruct Hw as [ <- | [] ]. exists z. split; [ exact E | lia ].
  - rewrite (reduce_nth num_min m lanes j x y Hj H) in E. destruct (nth j x NaN) as [ a | ] eqn:Ea; [ | discriminate ].
    destruct (nth j (reduce_lanes num_min (y :: lanes)) NaN) as [ b | ] eqn:Eb; [ | discriminate ]. injection E as <-. destruct Hw as [ <- | Hw ].
    + exists a. split; [ exact Ea | lia ].
    + destruct (IH b ltac:(discriminate) ltac:(intros v Hv; apply H; now right) eq_refl w Hw) as (c & Ec & Hc). exists c. split; [ exact Ec | lia ].
Qed.
Lemma max_spec m lanes j z : j < m -> lanes <> [] -> (forall x, In x lanes -> length x = m) ->
  nth j (reduce_lanes num_max lanes) NaN = Fin z -> forall x, In x lanes -> exists y, nth j x NaN = Fin y /\ (y <= z)%Z.
Proof.
  intros Hj. revert z. induction lanes as [ | x [ | y lanes ] IH ]; intros z Hn H E w Hw; [ contradiction | | ].
  - destruct Hw as [ <- | [] ]. exists z. split; [ exact E | lia ].
  - rewrite (reduce_nth num_max m lanes j x y Hj H) in E. destruct (nth j x NaN) as [ a | ] eqn:Ea; [ | discriminate ].
    destruct (nth j (reduce_lanes num_max (y :: lanes)) NaN) as [ b | ] eqn:Eb; [ | discriminate ]. injection E as <-. destruct Hw as [ <- | Hw ].
    + exists a. split; [ exact Ea | lia ].
    + destruct (IH b ltac:(discriminate) ltac:(intros v Hv; apply H; now right) eq_refl w Hw) as (c & Ec & Hc). exists c. split; [ exact Ec | lia ].
Qed.
Lemma reduce_const f m lanes j z : f (Fin z) (Fin z) = Fin z -> j < m -> lanes <> [] -> (forall x, In x lanes -> length x = m) ->
  (forall x, In x lanes -> nth j x NaN = Fin z) -> nth j (reduce_lanes f lanes) NaN = Fin z.
Proof.
  intros Hf Hj. induction lanes as [ | x [ | y lanes ] IH ]; intros Hn H E; [ contradiction | apply E; now left | ].
  rewrite (reduce_nth f m lanes j x y Hj H), (E x) by now left. rewrite IH; [ exact Hf | discriminate | | ]; intros v Hv; [ apply H | apply E ]; now right.
Qed.
(** Lanes of equal sizes are found constant exactly if all agree with the first and there is no NaN. *)
Lemma nonconstant_spec m x lanes : (forall y, In y (x :: lanes) -> length y = m) ->
  nonconstant (x :: lanes) = false <-> (forall y, In y (x :: lanes) -> y = x) /\ forall a, In a x -> a <> NaN.
Proof.
  intro H. set (ls := x :: lanes) in *. assert (Hn : ls <> []) by discriminate.
  assert (Lmin := reduce_length num_min m ls Hn H). assert (Lmax := reduce_length num_max m ls Hn H).
  assert (Hx : length x = m) by (apply H; now left).
  unfold nonconstant.
  assert (K : existsb (fun p => num_neq (fst p) (snd p)) (List.combine (reduce_lanes num_min ls) (reduce_lanes num_max ls)) = false <->
    forall j, j < m -> num_neq (nth j (reduce_lanes num_min ls) NaN) (nth j (reduce_lanes num_max ls) NaN) = false).
  { split.
    - intros E j Hj. destruct (num_neq _ _) eqn:Q; [ | reflexivity ]. rewrite <- E. symmetry. apply existsb_exists.
      exists (nth j (reduce_lanes num_min ls) NaN, nth j (reduce_lanes num_max ls) NaN). split; [ | exact Q ].
      rewrite <- combine_nth by lia. apply nth_In. rewrite combine_length. lia.
    - intro E. destruct (existsb _ _) eqn:Q; [ | reflexivity ]. apply existsb_exists in Q as ([a b] & Hin & Q). apply (In_nth _ _ (NaN, NaN)) in Hin as (j & Hj & Ej).
      rewrite combine_length in Hj. rewrite combine_nth in Ej by lia. injection Ej as Ea Eb. cbn [fst snd] in Q. subst a b. rewrite E in Q by lia. discriminate. }
  rewrite K. split.
  - intro E. assert (F : forall j, j < m -> exists z, forall y, In y ls -> nth j y NaN = Fin z).
    { intros j Hj. specialize (E j Hj). destruct (nth j (reduce_lanes num_min ls) NaN) as [ z | ] eqn:E1; [ | discriminate ].
      destruct (nth j (reduce_lanes num_max ls) NaN) as [ z' | ] eqn:E2; [ | discriminate ]. cbn in E. apply Bool.negb_false_iff, Z.eqb_eq in E. subst z'.
      exists z. intros y Hy. destruct (min_spec m ls j z Hj Hn H E1 y Hy) as (c & Ec & Hc). destruct (max_spec m ls j z Hj Hn H E2 y Hy) as (c' & Ec' & Hc').
      rewrite Ec in Ec'. injection Ec' as <-. rewrite Ec. f_equal. lia. }
    split.
    + intros y Hy. apply (nth_ext _ _ NaN NaN); [ now rewrite (H y Hy) | ]. intros j Hj. rewrite (H y Hy) in Hj. destruct (F j Hj) as (z & Hz).
      rewrite (Hz y Hy), (Hz x (or_introl eq_refl)). reflexivity.
    + intros a Ha. apply (In_nth _ _ NaN) in Ha as (j & Hj & <-). rewrite Hx in Hj. destruct (F j Hj) as (z & Hz). rewrite (Hz x (or_introl eq_refl)). discriminate.
  - intros [E1 E2] j Hj. assert (F : exists z, nth j x NaN = Fin z).
    { destruct (nth j x NaN) as [ z | ] eqn:E; [ now exists z | ]. exfalso. apply (E2 NaN); [ | reflexivity ]. rewrite <- E. apply nth_In. lia. }
    destruct F as (z & Ez). assert (G : forall y, In y ls -> nth j y NaN = Fin z) by (intros y Hy; now rewrite (E1 y Hy)).
    rewrite !(reduce_const _ m ls j z) by (try assumption; cbn; f_equal; lia). cbn. now rewrite Z.eqb_refl.
Qed.
Lemma in_all_lanes ls : forall l, lane ls l -> exists l0, In l0 (all_lanes ls) /\ lane ls l0 /\ forall (d : list nat -> list num), wfd ls d -> d l0 = d l.
Proof.
  induction ls as [ | [ n | ] ls IH ]; intros l Hl; inversion Hl as [ | ? b l' Hl' | ? ? b l' Hb Hl' ]; subst; cbn [all_lanes].
  - exists []. split; [ now left | ]. split; [ constructor | reflexivity ].
  - destruct (IH l' Hl') as (l0 & H1 & H2 & H3). exists (b :: l0). split; [ | split ].
    + apply in_flat_map. exists l0. split; [ exact H1 | ]. apply in_map_iff. exists b. split; [ reflexivity | apply in_seq; lia ].
    + now constructor.
    + intros d Hd. apply (H3 (fun l => d (b :: l))), (wfd_tl _ _ _ b Hd).
  - destruct (IH l' Hl') as (l0 & H1 & H2 & H3). exists (0 :: l0). split; [ now apply in_map | split ].
    + now constructor.
    + intros d Hd. rewrite (H3 (fun l => d (0 :: l)) (wfd_tl _ _ _ 0 Hd)). symmetry. exact (wfd_un _ d b l' Hd).
Qed.
Lemma all_lanes_lane ls : forall l, In l (all_lanes ls) -> lane ls l.
Proof.
  induction ls as [ | [ n | ] ls IH ]; intros l Hl; cbn [all_lanes] in Hl.
  - destruct Hl as [ <- | [] ]. constructor.
  - apply in_flat_map in Hl as (l' & H1 & H2). apply in_map_iff in H2 as (b & <- & Hb). apply in_seq in Hb. constructor; [ lia | now apply IH ].
  - apply in_map_iff in Hl as (l' & <- & Hl). constructor. now apply IH.
Qed.

(** The value is accepted exactly if it is constant and finite at the innermost level at which it is batched; it comes back with the same value in
    every lane, no longer batched there. *)
Theorem C80_constant : forall x i n, wf x -> same_length x -> innermost (levels x) = Some (i, S n) ->
  (constant_at x i (S n) -> exists r, nonbatchable true x = Ok r /\ levels r = firstn i (levels x) ++ None :: skipn (S i) (levels x) /\
     forall l, lane (levels x) l -> den r l = den x l) /\
  (~ constant_at x i (S n) -> nonbatchable true x = Err RuntimeError).
Proof.
  intros [ls d] i n H (m & Hm) Hi. unfold nonbatchable, constant_at. cbn [levels den] in *. revert d i H Hm Hi.
  induction ls as [ | [ k | ] ls IH ]; intros d i H Hm Hi; cbn [innermost] in Hi; [ discriminate | | ].
  - injection Hi as <- ->. cbn [bind_nonbatchable Nat.eqb].
    set (bad := existsb _ (all_lanes ls)).
    assert (Hbad : bad = false <-> forall l b, lane (Some (S n) :: ls) l -> b < S n -> d (with_lane 0 b l) = d l /\ forall a, In a (d l) -> a <> NaN).
    { split.
      - intros E l b Hl Hb. inversion Hl as [ | | ? ? c l' Hc Hl' ]; subst. cbn [with_lane firstn skipn app].
        destruct (in_all_lanes ls l' Hl') as (l0 & H1 & H2 & H3).
        rewrite <- (H3 (fun l => d (b :: l)) (wfd_tl _ _ _ b H)), <- (H3 (fun l => d (c :: l)) (wfd_tl _ _ _ c H)).
        assert (Q : nonconstant (map (fun b => d (b :: l0)) (seq 0 (S n))) = false).
        { destruct (nonconstant _) eqn:Q; [ | reflexivity ]. rewrite <- E. symmetry. apply existsb_exists. now exists l0. }
        cbn [seq map] in Q. apply (nonconstant_spec m) in Q as [Q1 Q2].
        + assert (Q3 : forall e, e < S n -> d (e :: l0) = d (0 :: l0)).
          { intros e He. destruct e as [ | e ]; [ reflexivity | ]. apply Q1. right. apply in_map_iff. exists (S e). split; [ reflexivity | apply in_seq; lia ]. }
          split; [ now rewrite (Q3 b Hb), (Q3 c Hc) | ]. rewrite (Q3 c Hc). exact Q2.
        + change (d (0 :: l0) :: map (fun b0 => d (b0 :: l0)) (seq 1 n)) with (map (fun b0 => d (b0 :: l0)) (seq 0 (S n))).
          intros y Hy. apply in_map_iff in Hy as (e & <- & He). apply in_seq in He. apply Hm. constructor; [ lia | exact H2 ].
      - intro E. destruct bad eqn:Q; [ | reflexivity ]. unfold bad in Q. apply existsb_exists in Q as (l & Hl & Q). apply all_lanes_lane in Hl.
        rewrite <- Q. cbn [seq map]. apply (nonconstant_spec m).
        + change (d (0 :: l) :: map (fun b0 => d (b0 :: l)) (seq 1 n)) with (map (fun b0 => d (b0 :: l)) (seq 0 (S n))).
          intros y Hy. apply in_map_iff in Hy as (e & <- & He). apply in_seq in He. apply Hm. constructor; [ lia | exact Hl ].
        + assert (L0 : lane (Some (S n) :: ls) (0 :: l)) by (constructor; [ lia | exact Hl ]). split.
          * intros y [ <- | Hy ]; [ reflexivity | ]. apply in_map_iff in Hy as (e & <- & He). apply in_seq in He. exact (proj1 (E (0 :: l) e L0 ltac:(lia))).
          * exact (proj2 (E (0 :: l) 0 L0 ltac:(lia))). }
    split.
    + intro Hc. rewrite (proj2 Hbad Hc). eexists. split; [ reflexivity | ]. cbn [levels den firstn skipn app]. split; [ reflexivity | ].
      intros l Hl. inversion Hl as [ | | ? ? c l' Hlt Hl' ]; subst. cbn [tl]. exact (proj1 (Hc (c :: l') 0 Hl ltac:(lia))).
    + intro Hc. destruct bad eqn:Q; [ reflexivity | ]. destruct Hc. now apply Hbad.
  - destruct (innermost ls) as [ [i' n'] | ] eqn:Hi'; [ | discriminate ]. injection Hi as <- ->. cbn [bind_nonbatchable].
    destruct (IH (fun l => d (0 :: l)) i' (wfd_tl _ _ _ 0 H)) as [IH1 IH2]; [ intros l Hl; apply Hm; now constructor | reflexivity | ].
    assert (Heq : (forall l b, lane ls l -> b < S n -> d (0 :: with_lane i' b l) = d (0 :: l) /\ (forall a, In a (d (0 :: l)) -> a <> NaN)) <->
                  (forall l b, lane (None :: ls) l -> b < S n -> d (with_lane (S i') b l) = d l /\ (forall a, In a (d l) -> a <> NaN))).
    { split.
      - intros E l b Hl Hb. inversion Hl as [ | ? c l' Hl' | ]; subst. specialize (E l' b Hl' Hb).
        change (with_lane (S i') b (c :: l')) with (c :: with_lane i' b l'). rewrite (wfd_un _ d c _ H), (wfd_un _ d c l' H). exact E.
      - intros E l b Hl Hb. exact (E (0 :: l) b (lane_un ls 0 l Hl) Hb). }
    split.
    + intro Hc. destruct (IH1 (proj2 Heq Hc)) as (r & Er & El & Ed). rewrite Er. cbn [bind]. eexists. split; [ reflexivity | ]. cbn [levels den firstn skipn app].
      split; [ now rewrite El | ]. intros l Hl. inversion Hl as [ | ? c l' Hl' | ]; subst. cbn [tl]. rewrite Ed by exact Hl'. symmetry. exact (wfd_un _ d c l' H).
    + intro Hc. rewrite IH2; [ reflexivity | ]. intro E. apply Hc. now apply Heq.
Qed.
Print Assumptions C80_constant.
(** Over no lanes at all the reductions raise; an unbatched value is returned as it is. *)
Theorem C80_no_lanes : forall x, wf x ->
  (forall i, innermost (levels x) = Some (i, 0) -> nonbatchable true x = Err ValueError) /\
  (innermost (levels x) = None -> exists r, nonbatchable true x = Ok r /\ levels r = levels x /\ forall l, lane (levels x) l -> den r l = den x l).
Proof.
  intros [ls d] H. unfold nonbatchable. cbn [levels den]. revert d H. induction ls as [ | [ n | ] ls IH ]; intros d H; cbn [bind_nonbatchable innermost].
  - split; [ discriminate | ]. intros _. eexists. split; [ reflexivity | ]. now split.
  - split; [ | discriminate ]. intros i E. injection E as _ ->. reflexivity.
  - destruct (IH _ (wfd_tl _ _ _ 0 H)) as [IH1 IH2]. split.
    + intros i E. destruct (innermost ls) as [ [j m] | ]; [ | discriminate ]. injection E as _ ->. rewrite (IH1 j eq_refl). reflexivity.
    + intro E. destruct (innermost ls) as [ [j m] | ]; [ discriminate | ]. destruct (IH2 eq_refl) as (r & -> & Hl & Hd).
      eexists. split; [ reflexivity | ]. cbn [levels den]. split; [ now rewrite Hl | ]. intros l Hll. inversion Hll as [ | ? b l' Hl' | ]; subst. cbn [tl].
      rewrite Hd by exact Hl'. symmetry. exact (wfd_un _ d b l' H).
Qed.
Print Assumptions C80_no_lanes.
(** Levels further out are not looked at: a value that varies over the outer of two levels is accepted, and is still batched afterwards. *)
Theorem C80_outer_refuted : exists x r l l', wf x /\ same_length x /\ nonbatchable true x = Ok r /\
  In (Some 2) (levels r) /\ lane (levels x) l /\ lane (levels x) l' /\ den r l <> den r l'.
Proof.
  exists {| levels := [Some 3; Some 2]; den := fun l => [Fin (Z.of_nat (nth 1 l 0))] |}. do 3 eexists.
  split; [ intros [ | [ | [ | i ] ] ] l b Hi; discriminate | ]. split; [ now exists 1 | ]. split; [ reflexivity | ]. split; [ right; now left | ].
  split; [ apply (lane_at 3 [Some 2] 0 [0]); [ lia | ]; repeat constructor | ]. split; [ apply (lane_at 3 [Some 2] 0 [1]); [ lia | ]; repeat constructor | ]. discriminate.
Qed.
Print Assumptions C80_outer_refuted.
(** A batch of equal values that are NaN is refused. *)
Theorem C80_nan_refuted : exists x, wf x /\ (forall l l', lane (levels x) l -> lane (levels x) l' -> den x l = den x l') /\ nonbatchable true x = Err RuntimeError.
Proof.
  exists {| levels := [Some 2]; den := fun _ => [NaN] |}. split; [ | split; reflexivity ]. intros [ | [ | i ] ] l b Hi; discriminate.
Qed.
Print Assumptions C80_nan_refuted.

(** *** [nontraceable] and [nondifferentiable_backward] *)
Theorem C80_nontraceable : forall x,
  ((exists n, In (Some n) (levels x)) -> nontraceable x = Err RuntimeError) /\ ((forall n, ~ In (Some n) (levels x)) -> nontraceable x = Ok x).
Proof.
  intro x. unfold nontraceable. destruct (existsb _ (levels x)) eqn:E.
  - split; [ reflexivity | ]. intro Hn. apply existsb_exists in E as ([ n | ] & Hin & E); [ destruct (Hn n Hin) | discriminate ].
  - split; [ | reflexivity ]. intros (n & Hn). exfalso. assert (existsb (fun o => match o with Some _ => true | None => false end) (levels x) = true) as C
      by (apply existsb_exists; now exists (Some n)). congruence.
Qed.
Print Assumptions C80_nontraceable.
(** Forward derivatives pass. In reverse mode symbolic zeros pass; anything else is refused, or, if not [symbolic], exactly what is not zero. *)
Theorem C80_forward : forall x t, nondiff_jvp x t = (x, t).
Proof. intros x [ t | ]; reflexivity. Qed.
Theorem C80_backward : forall symbolic ct, (forall v, ct = Some v -> wf v) ->
  (ct = None -> nondiff_transpose symbolic ct = Ok None) /\
  (forall v, ct = Some v -> symbolic = true -> nondiff_transpose symbolic ct = Err RuntimeError) /\
  (forall v, ct = Some v -> symbolic = false -> (forall a, occurs v a -> a = Fin 0) -> nondiff_transpose symbolic ct = Ok ct) /\
  (forall v a, ct = Some v -> symbolic = false -> occurs v a -> a <> Fin 0 -> nondiff_transpose symbolic ct = Err RuntimeError).
Proof.
  intros symbolic ct Hwf. split; [ intros ->; reflexivity | ]. split; [ intros v -> ->; reflexivity | ]. split.
  - intros v -> -> H. cbn. destruct (existsb _ _) eqn:E; [ | reflexivity ]. apply existsb_exists in E as (l & Hl & E). apply existsb_exists in E as (a & Ha & E).
    apply all_lanes_lane in Hl. rewrite (H a) in E by now exists l. discriminate.
  - intros v a -> -> (l & Hl & Ha) Hne. cbn. destruct (existsb _ _) eqn:E; [ reflexivity | ]. exfalso.
    destruct (in_all_lanes _ l Hl) as (l0 & H1 & _ & H3). specialize (H3 (den v) (wf_eta v (Hwf v eq_refl))). rewrite <- H3 in Ha.
    assert (C : existsb (fun l => existsb nonzero (den v l)) (all_lanes (levels v)) = true).
    { apply existsb_exists. exists l0. split; [ exact H1 | ]. apply existsb_exists. exists a. split; [ exact Ha | ].
      destruct a as [ [ | p | p ] | ]; try reflexivity. now destruct Hne. }
    congruence.
Qed.
Print Assumptions C80_backward.

(** A value batched at the inner of two levels only. *)
Definition ex_val (z0 z1 : Z) : val num := {| levels := [None; Some 2]; den := fun l => [Fin (if Nat.eqb (nth 1 l 0) 0 then z0 else z1)] |}.
Example C80_ex : wf (ex_val 1 2) /\ same_length (ex_val 1 2) /\ innermost (levels (ex_val 1 2)) = Some (1, 2) /\
  nonbatchable true (ex_val 1 2) = Err RuntimeError /\ (exists r, nonbatchable true (ex_val 1 1) = Ok r /\ levels r = [None; None]) /\
  (exists r, unvmap_any {| levels := [None; Some 2]; den := fun l => [Nat.eqb (nth 1 l 0) 1] |} = Ok r /\ den r [0; 0] = [true]) /\
  nondiff_transpose false (Some (ex_val 0 0)) = Ok (Some (ex_val 0 0)) /\ nondiff_transpose false (Some (ex_val 0 1)) = Err RuntimeError.
Proof.
  split.
  - intros [ | [ | [ | i ] ] ] l b Hi; try discriminate. intros Hl l'. destruct l; [ reflexivity | discriminate ].
  - split; [ now exists 1 | ]. split; [ reflexivity | ]. split; [ reflexivity | ].
    split; [ eexists; split; reflexivity | ]. split; [ eexists; split; reflexivity | ]. split; reflexivity.
Qed.
Print Assumptions C80_forward.
