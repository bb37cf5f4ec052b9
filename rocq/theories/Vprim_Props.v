(** Property C79: primitives with derived batching rules (equinox/internal/_primitive.py: create_vprim). *)
From Coq Require Import List Lia.
From Verif Require Import Vprim_Model.
Import ListNotations.
Local Open Scope nat_scope.
Local Open Scope list_scope.

Lemma nth_map_seq {T} (f : nat -> T) n j dflt : j < n -> nth j (map f (seq 0 n)) dflt = f j.
Proof. intro H. rewrite (nth_indep _ dflt (f 0)) by (rewrite map_length, seq_length; lia). rewrite map_nth, seq_nth by lia. reflexivity. Qed.
Lemma mapM_seq_nth {T} (f : nat -> res T) n l dflt : mapM f (seq 0 n) = Ok l -> length l = n /\ forall j, j < n -> f j = Ok (nth j l dflt).
Proof.
  assert (H : forall n s l, mapM f (seq s n) = Ok l -> length l = n /\ forall j, j < n -> f (s + j) = Ok (nth j l dflt)).
  { clear n l. induction n as [ | n IH ]; intros s l H; cbn in H.
    - injection H as <-. split; [ reflexivity | lia ].
    - apply bind_ok in H as (y & Hb & H). apply bind_ok in H as (ys & Hb0 & H). injection H as <-. destruct (IH (S s) _ Hb0) as [ HL HF ]. split; [ cbn; lia | ]. intros [ | j ] Hj; cbn [nth].
      + rewrite Nat.add_0_r. exact Hb.
      + replace (s + S j) with (S s + j) by lia. apply HF. lia. }
  intro Hm. destruct (H n 0 l Hm) as [ HL HF ]. split; [ exact HL | ]. intros j Hj. exact (HF j Hj).
Qed.
Lemma mapM_seq_ok {T} (f : nat -> res T) n : (forall j, j < n -> exists y, f j = Ok y) -> exists l, mapM f (seq 0 n) = Ok l.
Proof.
  enough (H : forall s, (forall j, s <= j < s + n -> exists y, f j = Ok y) -> exists l, mapM f (seq s n) = Ok l).
  { intro Hj. apply H. intros j Hr. apply Hj. lia. }
  induction n as [ | n IH ]; intros s H; [ exists []; reflexivity | ]. cbn.
  destruct (H s ltac:(lia)) as [ y -> ]. cbn. destruct (IH (S s)) as [ l -> ]; [ intros j Hj; apply H; lia | ]. cbn. eexists. reflexivity.
Qed.

Section Props.
  Variables (A : Type) (d : A) (take : nat -> nat -> A -> A) (stack : nat -> list A -> A).
  Hypothesis take_stack : forall k b l, b < length l -> take k b (stack k l) = nth b l d.
  Notation prim := (prim A).
  Notation impl := (impl A take stack d).
  Notation jvp := (jvp A take stack d).
  Notation transpose := (transpose A take stack d).
  (** Element [b] of a batched argument. *)
  Definition elem (b : nat) (axis : option nat) (x : A) : A := match axis with Some k => take k b x | None => x end.
  Definition elems (b : nat) (axes : list (option nat)) (xs : list A) : list A := map (fun p => elem b (fst p) (snd p)) (List.combine axes xs).
  Definition elems_t (b : nat) (axes : list (option nat)) (ts : list (option A)) : list (option A) :=
    map (fun p => option_map (elem b (fst p)) (snd p)) (List.combine axes ts).

  Lemma slices_none b axes xs : length axes = length xs -> (forall k, In k axes -> k = None) -> elems b axes xs = xs.
  Proof.
    revert axes. induction xs as [ | x xs IH ]; intros [ | k axes ] HL H; try discriminate; [ reflexivity | ].
    cbn. rewrite (H k (or_introl eq_refl)). cbn. f_equal. apply IH; [ now injection HL | ]. intros; apply H; now right.
  Qed.
  Lemma vmap_elem n m f j b : j < m -> b < n -> take 0 b (nth j (vmap A stack n m f d) d) = nth j (f b) d.
  Proof.
    intros Hj Hb. unfold vmap. rewrite nth_map_seq by exact Hj. rewrite take_stack by (rewrite map_length, seq_length; lia).
    now rewrite nth_map_seq.
  Qed.
  (** Rules return as many outputs as declared. *)
  Fixpoint arity (p : prim) : Prop :=
    match p with Base _ r => forall xs, length (r_impl A r xs) = n_out A r | Vprim _ p _ _ => arity p end.
  Lemma impl_length p xs : arity p -> length (impl p xs) = outs A p.
  Proof. destruct p as [ r | p n axes ]; cbn; intro H; [ apply H | ]. unfold vmap. now rewrite map_length, seq_length. Qed.

  (** C79. The derived batching rule computes, for every element of the batch, what the primitive computes for it - also for primitives that are results of the rule,
      so for any nesting of [vmap]. Outputs are batched along axis 0, or not at all if no input is. *)
  Theorem C79_batch : forall p n xs axes, arity p -> length axes = length xs ->
    let '(out, oaxes) := batch_rule A take stack d p n xs axes in
    length out = outs A p /\ length oaxes = outs A p /\
    (forall j, j < outs A p -> nth j oaxes None = if forallb (fun k => match k with None => true | Some _ => false end) axes then None else Some 0) /\
    forall b j, b < n -> j < outs A p -> elem b (nth j oaxes None) (nth j out d) = nth j (impl p (elems b axes xs)) d.
  Proof.
    intros p n xs axes Hp HL. unfold batch_rule. destruct (forallb _ axes) eqn:E.
    - rewrite map_length, (impl_length p xs Hp). split; [ reflexivity | ]. split; [ reflexivity | ].
      assert (Hn : forall j, nth j (map (fun _ : A => @None nat) (impl p xs)) None = None).
      { intro j. clear. revert j. induction (impl p xs) as [ | x l IH ]; intros [ | j ]; cbn; auto. }
      split; [ intros; apply Hn | ]. intros b j Hb Hj. rewrite Hn. cbn [elem]. f_equal. f_equal. symmetry. apply slices_none; [ exact HL | ].
      intros k Hk. rewrite forallb_forall in E. specialize (E k Hk). destruct k; [ discriminate | reflexivity ].
    - rewrite map_length. rewrite (impl_length (Vprim A p n axes) xs Hp). cbn [outs]. split; [ reflexivity | ]. split; [ reflexivity | ].
      assert (Hn : forall j, j < outs A p -> nth j (map (fun _ : A => Some 0) (impl (Vprim A p n axes) xs)) None = Some 0).
      { intros j Hj. assert (HL' : j < length (impl (Vprim A p n axes) xs)) by (rewrite (impl_length (Vprim A p n axes) xs Hp); exact Hj). clear Hj. revert j HL'.
        induction (impl (Vprim A p n axes) xs) as [ | x l IH ]; intros [ | j ] Hj; cbn in *; try lia; auto. apply IH. lia. }
      split; [ exact Hn | ]. intros b j Hb Hj. rewrite Hn by exact Hj. cbn [elem Vprim_Model.impl]. now apply vmap_elem.
  Qed.

  (** Whether outputs are symbolic zeros depends on which inputs are, not on values. *)
  Definition zeros {T} (ts : list (option T)) : list bool := map (fun t => match t with None => true | Some _ => false end) ts.
  Fixpoint uniform_jvp (p : prim) : Prop :=
    match p with
    | Base _ r => forall xs xs' ts ts', zeros ts = zeros ts' -> zeros (snd (r_jvp A r xs ts)) = zeros (snd (r_jvp A r xs' ts'))
    | Vprim _ p _ _ => uniform_jvp p
    end.
  Lemma zeros_elems_t b axes ts ts' : zeros ts = zeros ts' -> zeros (elems_t b axes ts) = zeros (elems_t b axes ts').
  Proof.
    revert ts ts'. induction axes as [ | k axes IH ]; intros [ | t ts ] [ | t' ts' ] H; try discriminate; try reflexivity.
    cbn in H. injection H as H0 H1. cbn. f_equal; [ | now apply IH ]. destruct t, t'; (reflexivity || discriminate).
  Qed.
  Lemma zeros_elems_t_b b b' axes ts : zeros (elems_t b axes ts) = zeros (elems_t b' axes ts).
  Proof.
    unfold elems_t. generalize (List.combine axes ts). intro l. induction l as [ | [ k t ] l IH ]; [ reflexivity | ]. unfold zeros in *. cbn [map fst snd]. f_equal; [ destruct t; reflexivity | exact IH ].
  Qed.
  Lemma nth_zeros {T} (u v : list (option T)) j : zeros u = zeros v -> (nth j u None = None <-> nth j v None = None).
  Proof.
    revert v j. induction u as [ | x u IH ]; intros [ | y v ] j H; try discriminate; [ reflexivity | ].
    cbn in H. injection H as H0 H1. destruct j as [ | j ]; cbn; [ destruct x, y; try discriminate; split; auto; discriminate | now apply IH ].
  Qed.
  Lemma slices_t_eq b axes ts : slices_t A take b axes ts = elems_t b axes ts.
  Proof. unfold slices_t, elems_t. apply map_ext. intros [ k [ t | ] ]; reflexivity. Qed.
  Lemma uniform_jvp_ok p : uniform_jvp p -> forall xs xs' ts ts', zeros ts = zeros ts' -> zeros (snd (jvp p xs ts)) = zeros (snd (jvp p xs' ts')).
  Proof.
    induction p as [ r | p IH n axes ]; cbn [uniform_jvp]; intro H; [ exact H | ].
    intros xs xs' ts ts' Hz. cbn [Vprim_Model.jvp snd]. unfold zeros. rewrite !map_map. apply map_ext. intro j.
    pose proof (IH H (slices A take 0 axes xs) (slices A take 0 axes xs') (elems_t 0 axes ts) (elems_t 0 axes ts') (zeros_elems_t _ _ _ _ Hz)) as Hs.
    rewrite (slices_t_eq 0 axes ts), (slices_t_eq 0 axes ts').
    pose proof (nth_zeros _ _ j Hs) as Hj.
    destruct (nth j (snd (jvp p (slices A take 0 axes xs) (elems_t 0 axes ts))) None), (nth j (snd (jvp p (slices A take 0 axes xs') (elems_t 0 axes ts'))) None);
      try reflexivity; [ destruct Hj as [ _ Hj ]; specialize (Hj eq_refl) | destruct Hj as [ Hj _ ]; specialize (Hj eq_refl) ]; discriminate.
  Qed.
  (** C79. The derived forward rule gives every element of the batch the values and tangents the primitive's rule gives it; zeros stay symbolic. *)
  Theorem C79_jvp : forall p n axes xs ts b j, uniform_jvp p -> b < n -> j < outs A p ->
    let r := jvp (Vprim A p n axes) xs ts in
    let rb := jvp p (elems b axes xs) (elems_t b axes ts) in
    take 0 b (nth j (fst r) d) = nth j (fst rb) d /\ option_map (take 0 b) (nth j (snd r) None) = nth j (snd rb) None.
  Proof.
    intros p n axes xs ts b j Hu Hb Hj. cbv zeta. cbn [Vprim_Model.jvp fst snd]. split.
    - rewrite vmap_elem by assumption. rewrite slices_t_eq. reflexivity.
    - rewrite nth_map_seq by exact Hj. rewrite !slices_t_eq.
      pose proof (uniform_jvp_ok p Hu (slices A take 0 axes xs) (slices A take b axes xs) (elems_t 0 axes ts) (elems_t b axes ts) (zeros_elems_t_b 0 b axes ts)) as Hz.
      pose proof (nth_zeros _ _ j Hz) as Hj'.
      destruct (nth j (snd (jvp p (slices A take 0 axes xs) (elems_t 0 axes ts))) None).
      + cbn [option_map]. rewrite take_stack by (rewrite map_length, seq_length; lia). rewrite nth_map_seq by lia. rewrite slices_t_eq.
        change (elems b axes xs) with (slices A take b axes xs).
        destruct (nth j (snd (jvp p (slices A take b axes xs) (elems_t b axes ts))) None); [ reflexivity | ].
        destruct Hj' as [ _ Hj' ]. specialize (Hj' eq_refl). discriminate.
      + cbn [option_map]. symmetry. now apply Hj'.
  Qed.
  (** C79. So the values of the forward rule are the primitive's at any nesting, if they are for the rule registered. *)
  Theorem C79_jvp_primal : forall p xs ts, (forall r, (fix base p := match p with Base _ r => r | Vprim _ p _ _ => base p end) p = r ->
      forall xs ts, fst (r_jvp A r xs ts) = r_impl A r xs) ->
    fst (jvp p xs ts) = impl p xs.
  Proof.
    induction p as [ r | p IH n axes ]; intros xs ts H; cbn [Vprim_Model.jvp Vprim_Model.impl fst].
    - now apply (H r).
    - unfold vmap. apply map_ext. intro j. f_equal. apply map_ext. intro b. rewrite IH; [ reflexivity | exact H ].
  Qed.

  (** ** Transposition *)
  Variables (K : Type) (kzero : K) (kadd : K -> K -> K) (ip : A -> A -> K).
  Hypothesis kadd_assoc : forall a b c, kadd a (kadd b c) = kadd (kadd a b) c.
  Hypothesis kadd_comm : forall a b, kadd a b = kadd b a.
  Hypothesis kadd_zero : forall a, kadd kzero a = a.
  Fixpoint ksum (l : list K) : K := match l with [] => kzero | x :: l => kadd x (ksum l) end.
  (** [has k n x]: [x] has [n] slices along axis [k]. The inner product of arrays is the sum of those of their slices. *)
  Variable has : nat -> nat -> A -> Prop.
  Hypothesis ip_stack_l : forall k l x, has k (length l) x -> ip (stack k l) x = ksum (map (fun b => ip (nth b l d) (take k b x)) (seq 0 (length l))).
  Hypothesis ip_stack_r : forall k l x, has k (length l) x -> ip x (stack k l) = ksum (map (fun b => ip (take k b x) (nth b l d)) (seq 0 (length l))).
  Lemma ksum_map_add {T} (f g : T -> K) l : ksum (map (fun x => kadd (f x) (g x)) l) = kadd (ksum (map f l)) (ksum (map g l)).
  Proof.
    induction l as [ | x l IH ]; cbn; [ now rewrite kadd_zero | ]. rewrite IH, !kadd_assoc. f_equal. rewrite <- !kadd_assoc. f_equal. apply kadd_comm.
  Qed.
  Lemma ksum_zero {T} (l : list T) : ksum (map (fun _ => kzero) l) = kzero.
  Proof. induction l; cbn; [ reflexivity | ]. now rewrite kadd_zero. Qed.
  Lemma ksum_swap {S T} (f : S -> T -> K) l m : ksum (map (fun x => ksum (map (f x) m)) l) = ksum (map (fun y => ksum (map (fun x => f x y) l)) m).
  Proof.
    induction l as [ | x l IH ]; cbn; [ now rewrite ksum_zero | ]. rewrite IH. symmetry. apply (ksum_map_add (f x) (fun y => ksum (map (fun x => f x y) l))).
  Qed.

  (** Inner products with cotangents, zero for symbolic zeros. *)
  Definition pair (c : option A) (x : A) : K := match c with Some c => ip c x | None => kzero end.
  (** The primitive as a function of the arguments to transpose with respect to: [None] in [xs], filled from [us]. *)
  Definition fill (xs : list (option A)) (us : list A) : list A := map (fun p => match fst p with Some x => x | None => snd p end) (List.combine xs us).
  Definition adjoint (p : prim) (cts xs : list (option A)) (us : list A) (cs : list (option A)) :=
    ksum (map (fun j => pair (nth j cts None) (nth j (impl p (fill xs us)) d)) (seq 0 (outs A p)))
    = ksum (map (fun i => pair (nth i cs None) (nth i us d)) (seq 0 (length xs))).
  (** Transpose rules: outputs for known arguments are [None]; which others are [None] does not depend on values. *)
  Definition pattern_stable (p : prim) := forall cts cts' xs xs' cs cs', zeros cts = zeros cts' -> zeros xs = zeros xs' ->
    transpose p cts xs = Ok cs -> transpose p cts' xs' = Ok cs' -> zeros cs = zeros cs'.

  Lemma fill_slices b axes xs us : length axes = length xs -> length us = length xs ->
    fill (elems_t b axes xs) (elems b axes us) = slices A take b axes (fill xs us).
  Proof.
    revert axes us. induction xs as [ | x xs IH ]; intros [ | k axes ] [ | u us ] H1 H2; try discriminate; [ reflexivity | ].
    unfold fill, elems_t, elems, slices in *. cbn [List.combine map fst snd]. f_equal; [ destruct x; reflexivity | ].
    apply IH; [ now injection H1 | now injection H2 ].
  Qed.
  Lemma nth_elems b axes us i : i < length us -> length axes = length us -> nth i (elems b axes us) d = elem b (nth i axes None) (nth i us d).
  Proof.
    revert axes i. induction us as [ | u us IH ]; intros [ | k axes ] [ | i ] Hi HL; cbn in *; try lia; [ reflexivity | ]. apply IH; lia.
  Qed.
  Lemma elems_t_length b axes xs : length axes = length xs -> length (elems_t b axes xs) = length xs.
  Proof. intro H. unfold elems_t. rewrite map_length, combine_length. lia. Qed.

  (** C79. The derived transpose rule, when it returns, returns the adjoint, if the rule it is derived from does for every element of the batch. *)
  Theorem C79_transpose : forall p n axes cts xs us cs, 0 < n -> pattern_stable p -> arity p -> length axes = length xs -> length us = length xs ->
    transpose (Vprim A p n axes) cts xs = Ok cs ->
    (forall j c, nth j cts None = Some c -> has 0 n c) ->
    (forall i k, nth i axes None = Some k -> has k n (nth i us d)) ->
    (forall b cb, b < n -> transpose p (map (option_map (take 0 b)) cts) (elems_t b axes xs) = Ok cb ->
                  adjoint p (map (option_map (take 0 b)) cts) (elems_t b axes xs) (elems b axes us) cb) ->
    adjoint (Vprim A p n axes) cts xs us cs.
  Proof.
    intros p n axes cts xs us cs Hn Hst Hp HLa HLu H Hc Hu Hlane.
    cbn [Vprim_Model.transpose] in H. apply bind_ok in H as (fs & Hfs & H).
    destruct (mapM_seq_nth _ _ _ [] Hfs) as [ Lfs Ffs ]. unfold vmap_opt in H. destruct (mapM_seq_nth _ _ _ None H) as [ Lcs Fcs ].
    assert (Ecs : forall b, map (slice_t A take b (Some 0)) cts = map (option_map (take 0 b)) cts)
      by (intro b; apply map_ext; intros [ | ]; reflexivity).
    assert (Hf : forall b, b < n -> transpose p (map (option_map (take 0 b)) cts) (elems_t b axes xs) = Ok (nth b fs [])).
    { intros b Hb. pose proof (Ffs b Hb) as F. cbn beta in F. rewrite slices_t_eq, Ecs in F. exact F. }
    assert (Hz : forall b i, b < n -> (nth i (nth b fs []) None = None <-> nth i (nth 0 fs []) None = None)).
    { intros b i Hb. apply nth_zeros. apply (Hst _ _ _ _ _ _) with (3 := Hf b Hb) (4 := Hf 0 Hn).
      - unfold zeros. rewrite !map_map. apply map_ext. intros [ | ]; reflexivity.
      - apply zeros_elems_t_b. }
    unfold adjoint. cbn [outs].
    (* both sides as sums over the batch *)
    transitivity (ksum (map (fun b => ksum (map (fun j => pair (nth j (map (option_map (take 0 b)) cts) None)
                     (nth j (impl p (fill (elems_t b axes xs) (elems b axes us))) d)) (seq 0 (outs A p)))) (seq 0 n))).
    - rewrite ksum_swap. f_equal. apply map_ext_in. intros j Hj. apply in_seq in Hj.
      assert (En : forall b, nth j (map (option_map (take 0 b)) cts) None = option_map (take 0 b) (nth j cts None)).
      { intro b. apply (map_nth (option_map (take 0 b)) cts None j). }
      destruct (nth j cts None) as [ c | ] eqn:Ec.
      + cbn [pair Vprim_Model.impl]. unfold vmap. rewrite nth_map_seq by lia. rewrite (ip_stack_r 0).
        * rewrite map_length, seq_length. f_equal. apply map_ext_in. intros b Hb. apply in_seq in Hb.
          rewrite En. cbn [option_map pair]. rewrite nth_map_seq by lia. rewrite fill_slices by assumption. reflexivity.
        * rewrite map_length, seq_length. apply (Hc j c Ec).
      + cbn [pair]. symmetry. erewrite map_ext; [ apply ksum_zero | ]. intro b. rewrite En. reflexivity.
    - transitivity (ksum (map (fun b => ksum (map (fun i => pair (nth i (nth b fs []) None) (nth i (elems b axes us) d)) (seq 0 (length xs)))) (seq 0 n))).
      + f_equal. apply map_ext_in. intros b Hb. apply in_seq in Hb. pose proof (Hlane b (nth b fs []) ltac:(lia) (Hf b ltac:(lia))) as Ha.
        unfold adjoint in Ha. rewrite elems_t_length in Ha by exact HLa. exact Ha.
      + rewrite ksum_swap. f_equal. apply map_ext_in. intros i Hi. apply in_seq in Hi.
        pose proof (Fcs i ltac:(lia)) as Hi'. destruct (nth i (nth 0 fs []) None) as [ c0 | ] eqn:E0.
        * destruct (nth i axes None) as [ k | ] eqn:Ek; [ | discriminate ]. injection Hi' as Hi'. rewrite <- Hi'. cbn [pair].
          rewrite ip_stack_l by (rewrite map_length, seq_length; now apply Hu). rewrite map_length, seq_length.
          f_equal. apply map_ext_in. intros b Hb. apply in_seq in Hb. rewrite nth_map_seq by lia.
          rewrite nth_elems by lia. rewrite Ek. cbn [elem].
          destruct (nth i (nth b fs []) None) eqn:Eb; [ reflexivity | ]. apply Hz in Eb; [ | lia ]. congruence.
        * injection Hi' as Hi'. rewrite <- Hi'. cbn [pair]. erewrite map_ext_in; [ apply ksum_zero | ]. intros b Hb. apply in_seq in Hb.
          apply (Hz b i) in E0; [ | lia ]. now rewrite E0.
  Qed.
  (** C79. It does not return if an argument to transpose with respect to is not batched: its cotangent should be summed over the batch, and ValueError is
      raised instead. *)
  Theorem C79_transpose_unbatched_refuted : forall p n axes cts xs fs i c, 0 < n -> i < length xs ->
    (forall b, b < n -> transpose p (map (option_map (take 0 b)) cts) (elems_t b axes xs) = Ok (fs b)) ->
    nth i axes None = None -> nth i (fs 0) None = Some c ->
    transpose (Vprim A p n axes) cts xs = Err ValueError.
  Proof.
    intros p n axes cts xs fs i c Hn Hi Hf Ha Hc. cbn [Vprim_Model.transpose].
    assert (Ecs : forall b, map (slice_t A take b (Some 0)) cts = map (option_map (take 0 b)) cts)
      by (intro b; apply map_ext; intros [ | ]; reflexivity).
    destruct (mapM_seq_ok (fun b => transpose p (map (slice_t A take b (Some 0)) cts) (slices_t A take b axes xs)) n) as [ l Hl ].
    { intros b Hb. exists (fs b). rewrite slices_t_eq, Ecs. now apply Hf. }
    rewrite Hl. cbn [bind]. destruct (mapM_seq_nth _ _ _ [] Hl) as [ Ll Fl ].
    assert (E0 : nth 0 l [] = fs 0).
    { pose proof (Fl 0 Hn) as F0. rewrite slices_t_eq, Ecs, (Hf 0 Hn) in F0. now injection F0. }
    unfold vmap_opt. rewrite E0.
    destruct (mapM _ (seq 0 (length xs))) as [ cs | e ] eqn:E.
    - destruct (mapM_seq_nth _ _ _ None E) as [ _ F ]. specialize (F i Hi). cbn beta in F. rewrite Hc, Ha in F. discriminate.
    - f_equal. revert E. generalize (seq 0 (length xs)). intro s. induction s as [ | j s IH ]; cbn; [ discriminate | ]. intro E.
      destruct (nth j (fs 0) None) as [ x | ]; [ destruct (nth j axes None) as [ k | ] | ]; cbn in E; try (injection E as <-; reflexivity);
        destruct (mapM _ s) as [ cs | e' ]; cbn in E; try discriminate; injection E as <-; apply IH; reflexivity.
  Qed.
End Props.
Print Assumptions C79_batch.
Print Assumptions C79_jvp.
Print Assumptions C79_jvp_primal.
Print Assumptions C79_transpose.
Print Assumptions C79_transpose_unbatched_refuted.

(** Non-vacuity: numbers and lists of numbers, lists of lists, ..., stacked along the first axis; addition as the primitive. *)
From Coq Require Import ZArith.
Inductive T := Num (z : Z) | Vec (l : list T).
Definition take_ex (k b : nat) (x : T) : T := match x with Vec l => nth b l (Num 0) | Num _ => Num 0 end.
Definition stack_ex (k : nat) (l : list T) : T := Vec l.
Fixpoint ip_ex (x y : T) : Z :=
  match x, y with
  | Num a, Num b => (a * b)%Z
  | Vec l, Vec m => (fix go l m := match l, m with a :: l', b :: m' => (ip_ex a b + go l' m')%Z | _, _ => 0%Z end) l m
  | _, _ => 0%Z
  end.
Definition has_ex (k n : nat) (x : T) := exists l, x = Vec l /\ length l = n.
Example C79_ex_laws :
  (forall k b l, b < length l -> take_ex k b (stack_ex k l) = nth b l (Num 0)) /\
  (forall k l x, has_ex k (length l) x -> ip_ex (stack_ex k l) x = ksum Z 0%Z Z.add (map (fun b => ip_ex (nth b l (Num 0)) (take_ex k b x)) (seq 0 (length l)))) /\
  (forall k l x, has_ex k (length l) x -> ip_ex x (stack_ex k l) = ksum Z 0%Z Z.add (map (fun b => ip_ex (take_ex k b x) (nth b l (Num 0))) (seq 0 (length l)))).
Proof.
  split; [ reflexivity | ].
  split; intros k l x (m & -> & HL); unfold stack_ex, take_ex; revert m HL; induction l as [ | a l IH ]; intros [ | c m ] HL; try discriminate; try reflexivity;
    injection HL as HL; cbn [length seq map ksum]; rewrite <- seq_shift, map_map; cbn [nth]; rewrite <- (IH m HL); reflexivity.
Qed.
Definition add_rules : rules T := {|
  n_out := 1;
  r_impl := fun xs => match xs with [Num a; Num b] => [Num (a + b)] | _ => [Num 0] end;
  r_jvp := fun xs ts => (match xs with [Num a; Num b] => [Num (a + b)] | _ => [Num 0] end,
                         match ts with [Some (Num a); Some (Num b)] => [Some (Num (a + b))] | [Some t; None] | [None; Some t] => [Some t] | _ => [None] end);
  r_transpose := fun cts xs => map (fun x => match x with None => nth 0 cts None | Some _ => None end) xs |}.
Example C79_ex : let p := Base T add_rules in
  arity T p /\ pattern_stable T (Num 0) take_ex stack_ex p /\
  batch_rule T take_ex stack_ex (Num 0) p 2 [Vec [Num 1; Num 2]; Num 10] [Some 0; None] = ([Vec [Num 11; Num 12]], [Some 0]) /\
  transpose T take_ex stack_ex (Num 0) (Vprim T p 2 [Some 0; None]) [Some (Vec [Num 5; Num 6])] [None; Some (Num 10)] = Ok [Some (Vec [Num 5; Num 6]); None] /\
  transpose T take_ex stack_ex (Num 0) (Vprim T p 2 [Some 0; None]) [Some (Vec [Num 5; Num 6])] [Some (Vec [Num 1; Num 2]); None] = Err ValueError.
Proof.
  intro p. split; [ intros [ | [ a | ] [ | [ b | ] [ | ? ? ] ] ]; reflexivity | ]. split; [ | repeat split ].
  intros cts cts' xs xs' cs cs' H1 H2 E1 E2. cbn in E1, E2. injection E1 as <-. injection E2 as <-.
  assert (H0 : (nth 0 cts None = None <-> nth 0 cts' None = None)) by now apply nth_zeros.
  unfold zeros in *. rewrite !map_map. revert xs' H2. induction xs as [ | x xs IH ]; intros [ | x' xs' ] H2; try discriminate; [ reflexivity | ].
  cbn in H2. injection H2 as Hx H2. cbn [map]. f_equal; [ | now apply IH ].
  destruct x, x'; try discriminate; [ reflexivity | ]. destruct (nth 0 cts None), (nth 0 cts' None); try reflexivity;
    [ destruct H0 as [ _ H0 ] | destruct H0 as [ H0 _ ] ]; specialize (H0 eq_refl); discriminate.
Qed.
