(** C121: gradients through wrapped parameters. *)
From Coq Require Import Ring Lia.
From Verif Require Import WrapGrad_Model Shared_Proofs Shared_Props SharedGrad_Props TreeAt_Proofs.
Local Open Scope nat_scope.
Local Open Scope list_scope.

Section Ring.
  Variable R : Type.
  Variables (zero one : R) (add mul sub_ : R -> R -> R) (opp : R -> R).
  Hypothesis Rring : ring_theory zero one add mul sub_ opp eq.
  Add Ring Rr : Rring.
  Notation "x + y" := (add x y). Notation "x * y" := (mul x y).
  Local Notation T := (tree (dleaf R)).
  Local Notation primal := (primal zero).
  Local Notation dot := (dot R zero add mul).
  Local Notation dots := (dots R zero add mul).
  Local Notation is_gradient := (is_gradient R zero add mul).
  Variable sym : nat.
  Variable get : T -> T.
  (** The transpose of [get] at each matrix. *)
  Variable pull : T -> (path -> R) -> path -> R.

  (** Not inside a wrapper. *)
  Definition outside (t : T) (p : path) : Prop := forall q i r m, p = q ++ i :: r -> sub t q <> Some (Node sym [m]).
  (** Every wrapper has its one field. *)
  Definition well_formed (t : T) : Prop := forall q cs, sub t q = Some (Node sym cs) -> exists m, cs = [m].
  (** [pl] is the transpose ([jax.vjp]) of [get] at the primals of [m0]. *)
  Definition get_vjp (m0 : T) (pl : (path -> R) -> path -> R) : Prop :=
    forall m, lmap primal m = lmap primal m0 -> lmap primal (get m) = lmap primal (get m0) /\ forall h, dot h (get m) = dot (pl h) m.
  Definition differentiable (t : T) : Prop := forall q m, sub t q = Some (Node sym [m]) -> outside t q -> get_vjp m (pull m).
  (** The gradient [h] of a wrapped model that belongs to the gradient [g] of the resolved one. *)
  Definition wrapped (t : T) (g h : path -> R) : Prop :=
    (forall p x dx, sub t p = Some (Leaf (Dual x dx)) -> outside t p -> h p = g p) /\
    (forall q m r x dx, sub t q = Some (Node sym [m]) -> outside t q -> sub m r = Some (Leaf (Dual x dx)) -> h (q ++ O :: r) = pull m (fun s => g (q ++ s)) r).

  Lemma outside_nil t : outside t [].
  Proof using. intros [|j q] i r m E; discriminate. Qed.
  Lemma outside_cons k cs i c p : nth_error cs i = Some c -> (k = sym -> length cs <> 1%nat) -> outside c p -> outside (Node k cs) (i :: p).
  Proof using.
    intros Hi Hk Ho q j r m E Hs. destruct q as [|a q].
    - cbn in Hs. injection Hs as -> ->. apply Hk; reflexivity.
    - injection E as <- ->. cbn in Hs. rewrite Hi in Hs. exact (Ho q j r m eq_refl Hs).
  Qed.
  Lemma dot_on g h t : (forall p x dx, sub t p = Some (Leaf (Dual x dx)) -> g p = h p) -> dot g t = dot h t.
  Proof using.
    revert g h. induction t as [[x dx|n]| |k cs IH] using tree_ind'; intros g h H; try reflexivity.
    - cbn. rewrite (H [] x dx eq_refl). reflexivity.
    - rewrite !dot_node.
      assert (G : forall n, (forall i c p x dx, nth_error cs i = Some c -> sub c p = Some (Leaf (Dual x dx)) -> g ((n + i)%nat :: p) = h ((n + i)%nat :: p)) -> dots g n cs = dots h n cs).
      { clear H. induction IH as [|c cs Hc _ IHc]; intros n H; [reflexivity|]. cbn [SharedGrad_Props.dots]. f_equal.
        - apply Hc. intros p x dx Hp. specialize (H O c p x dx eq_refl Hp). rewrite Nat.add_0_r in H. exact H.
        - apply IHc. intros i c' p x dx Hi Hp. specialize (H (S i) c' p x dx Hi Hp). rewrite Nat.add_succ_r in H. exact H. }
      apply (G O). intros i c p x dx Hi Hp. apply (H (i :: p) x dx). cbn. rewrite Hi. exact Hp.
  Qed.
  Lemma primal_dual t s p x dx : lmap primal t = lmap primal s -> sub t p = Some (Leaf (Dual x dx)) -> exists dx', sub s p = Some (Leaf (Dual x dx')).
  Proof using.
    intros E H. apply (f_equal (fun u => sub u p)) in E. rewrite !lmap_sub, H in E. cbn in E.
    destruct (sub s p) as [[[y dy|n]| |k cs]|]; try discriminate. cbn in E. injection E as ->. eauto.
  Qed.

  Local Notation resolve := (resolve_symmetric sym get).
  Lemma resolve_wrapper m : resolve (Node sym [m]) = get m.
  Proof using. unfold resolve_symmetric. cbn. rewrite Nat.eqb_refl. reflexivity. Qed.
  Lemma resolve_node k cs : k <> sym -> resolve (Node k cs) = Node k (map resolve cs).
  Proof using. intros H. unfold resolve_symmetric. cbn. destruct (Nat.eqb_spec k sym); [contradiction|reflexivity]. Qed.
  Lemma resolve_leaf a : resolve (Leaf a) = Leaf a.
  Proof using. reflexivity. Qed.

  Lemma through t0 : forall g h t, well_formed t0 -> differentiable t0 -> wrapped t0 g h -> lmap primal t = lmap primal t0 ->
    lmap primal (resolve t) = lmap primal (resolve t0) /\ dot g (resolve t) = dot h t.
  Proof using Rring.
    induction t0 as [a| |k cs IH] using tree_ind'; intros g h t W D [Wo Wi] E.
    - destruct t as [b| |]; try discriminate. rewrite !resolve_leaf. split; [exact E|]. injection E as E. destruct a as [x dx|n], b as [y dy|n']; try discriminate; [|reflexivity].
      cbn. rewrite (Wo [] x dx eq_refl (outside_nil _)). reflexivity.
    - destruct t as [b| |]; try discriminate. split; reflexivity.
    - destruct t as [b| |k' ds]; try discriminate. cbn [lmap] in E. injection E as -> E. destruct (Nat.eq_dec k sym) as [->|Hk].
      + destruct (W [] cs eq_refl) as [m ->]. destruct ds as [|m' [|? ?]]; try discriminate. injection E as E. rewrite !resolve_wrapper.
        destruct (D [] m eq_refl (outside_nil _) m' E) as [D1 D2]. split; [exact D1|]. rewrite D2. rewrite dot_node. cbn [SharedGrad_Props.dots].
        rewrite (dot_on (pull m g) (fun r : path => h (O :: r)) m').
        * ring.
        * intros p x dx Hp. destruct (primal_dual _ _ _ _ _ E Hp) as [dx' Hp']. symmetry. exact (Wi [] m p x dx' eq_refl (outside_nil _) Hp').
      + rewrite !resolve_node by exact Hk. rewrite !dot_node. cbn [lmap].
        assert (G : forall n, (forall i c p x dx, nth_error cs i = Some c -> sub c p = Some (Leaf (Dual x dx)) -> outside c p -> h ((n + i)%nat :: p) = g ((n + i)%nat :: p)) ->
          (forall i c q m r x dx, nth_error cs i = Some c -> sub c q = Some (Node sym [m]) -> outside c q -> sub m r = Some (Leaf (Dual x dx)) ->
             h ((n + i)%nat :: q ++ O :: r) = pull m (fun s => g ((n + i)%nat :: q ++ s)) r) ->
          (forall i c, nth_error cs i = Some c -> well_formed c /\ differentiable c) ->
          map (lmap primal) (map resolve ds) = map (lmap primal) (map resolve cs) /\ dots g n (map resolve ds) = dots h n ds).
        { clear Wo Wi W D. revert ds E. induction IH as [|c cs Hc _ IHc]; intros [|d ds] E n G1 G2 G3; try discriminate; [split; reflexivity|]. cbn [map] in E |- *. injection E as E0 E. cbn [SharedGrad_Props.dots].
          destruct (G3 O c eq_refl) as [W D].
          destruct (Hc (fun r => g (n :: r)) (fun r => h (n :: r)) d W D) as [K1 K2]; [|exact E0|].
          - split; [intros p x dx Hp Ho; specialize (G1 O c p x dx eq_refl Hp Ho); rewrite Nat.add_0_r in G1; exact G1|].
            intros q m r x dx Hq Ho Hr. specialize (G2 O c q m r x dx eq_refl Hq Ho Hr). rewrite Nat.add_0_r in G2. exact G2.
          - destruct (IHc ds E (S n)) as [L1 L2].
            + intros i c' p x dx Hi Hp Ho. specialize (G1 (S i) c' p x dx Hi Hp Ho). rewrite Nat.add_succ_r in G1. exact G1.
            + intros i c' q m r x dx Hi Hq Ho Hr. specialize (G2 (S i) c' q m r x dx Hi Hq Ho Hr). rewrite Nat.add_succ_r in G2. exact G2.
            + intros i c' Hi. exact (G3 (S i) c' Hi).
            + split; [congruence|]. rewrite K2, L2. reflexivity. }
        destruct (G O) as [G1 G2].
        * intros i c p x dx Hi Hp Ho. apply (Wo (i :: p) x dx); [cbn; rewrite Hi; exact Hp|]. apply (outside_cons k cs i c p Hi); [congruence|exact Ho].
        * intros i c q m r x dx Hi Hq Ho Hr. apply (Wi (i :: q) m r x dx); [cbn; rewrite Hi; exact Hq| |exact Hr]. apply (outside_cons k cs i c q Hi); [congruence|exact Ho].
        * intros i c Hi. split.
          -- intros q ds0 Hq. apply (W (i :: q) ds0). cbn. rewrite Hi. exact Hq.
          -- intros q m Hq Ho. apply (D (i :: q) m); [cbn; rewrite Hi; exact Hq|]. apply (outside_cons k cs i c q Hi); [congruence|exact Ho].
        * split; [f_equal; exact G1|exact G2].
  Qed.

  (** There is always one. *)
  Fixpoint wgrad (t : T) (g : path -> R) (p : path) : R :=
    match t with
    | Node k cs =>
        match p with
        | [] => zero
        | i :: r =>
            if Nat.eqb k sym then match cs with [m] => match i with O => pull m g r | _ => zero end | _ => zero end
            else (fix go (l : list T) (j : nat) : R := match l, j with [], _ => zero | c :: _, O => wgrad c (fun s => g (i :: s)) r | _ :: l, S j => go l j end) cs i
        end
    | _ => g p
    end.
  Lemma wgrad_node k cs g i r : k <> sym -> wgrad (Node k cs) g (i :: r) = match nth_error cs i with Some c => wgrad c (fun s => g (i :: s)) r | None => zero end.
  Proof using.
    intros H. cbn [wgrad]. destruct (Nat.eqb_spec k sym); [contradiction|].
    assert (G : forall (g' : path -> R) l j, (fix go (l : list T) (j : nat) : R := match l, j with [], _ => zero | c :: _, O => wgrad c g' r | _ :: l, S j => go l j end) l j =
      match nth_error l j with Some c => wgrad c g' r | None => zero end).
    { intros g'. induction l as [|c l IH]; intros [|j]; try reflexivity. apply IH. }
    apply G.
  Qed.
  Lemma wgrad_wrapped t : forall g, well_formed t -> wrapped t g (wgrad t g).
  Proof using.
    induction t as [a| |k cs IH] using tree_ind'; intros g W; rewrite ?Forall_forall in *.
    - split; [intros p x dx Hp _; destruct p; [reflexivity|discriminate]|]. intros [|i q] m r x dx Hq; discriminate.
    - split; [intros [|i p] x dx Hp; discriminate|]. intros [|i q] m r x dx Hq; discriminate.
    - destruct (Nat.eq_dec k sym) as [->|Hk].
      + destruct (W [] cs eq_refl) as [m ->]. split.
        * intros [|i p] x dx Hp Ho; [discriminate|]. exfalso. exact (Ho [] i p m eq_refl eq_refl).
        * intros [|i q] m' r x dx Hq Ho Hr.
          -- cbn in Hq. injection Hq as <-. cbn [app wgrad]. rewrite Nat.eqb_refl. reflexivity.
          -- exfalso. exact (Ho [] i q m eq_refl eq_refl).
      + assert (OC : forall i c p, nth_error cs i = Some c -> outside (Node k cs) (i :: p) -> outside c p).
        { intros i c p Hi Ho q j r m -> Hs. apply (Ho (i :: q) j r m eq_refl). cbn. rewrite Hi. exact Hs. }
        assert (WC : forall i c, nth_error cs i = Some c -> well_formed c).
        { intros i c Hi q ds Hq. apply (W (i :: q) ds). cbn. rewrite Hi. exact Hq. }
        split.
        * intros [|i p] x dx Hp Ho; [discriminate|]. rewrite wgrad_node by exact Hk. cbn in Hp. destruct (nth_error cs i) as [c|] eqn:Hi; [|discriminate].
          destruct (IH c (nth_error_In _ _ Hi) (fun s => g (i :: s)) (WC i c Hi)) as [H1 _]. apply (H1 p x dx Hp (OC i c p Hi Ho)).
        * intros [|i q] m r x dx Hq Ho Hr; [cbn in Hq; congruence|]. cbn [app]. rewrite wgrad_node by exact Hk. cbn in Hq. destruct (nth_error cs i) as [c|] eqn:Hi; [|discriminate].
          destruct (IH c (nth_error_In _ _ Hi) (fun s => g (i :: s)) (WC i c Hi)) as [_ H2]. apply (H2 q m r x dx Hq (OC i c q Hi Ho) Hr).
  Qed.
  Lemma wrapped_gradient t g h loss : well_formed t -> differentiable t -> is_gradient loss (resolve t) g -> wrapped t g h ->
    is_gradient (resolved_loss sym get loss) t h.
  Proof using Rring.
    intros W D G H u E. unfold resolved_loss. destruct (through t g h u W D H E) as [E1 E2]. rewrite (G _ E1), E2. reflexivity.
  Qed.
  Lemma gradient_wrapped t g h loss : well_formed t -> differentiable t -> is_gradient loss (resolve t) g -> is_gradient (resolved_loss sym get loss) t h -> wrapped t g h.
  Proof using Rring.
    intros W D G H. pose proof (wgrad_wrapped t g W) as K. pose proof (wrapped_gradient t g _ loss W D G K) as K'. destruct K as [K1 K2]. split.
    - intros p x dx Hp Ho. rewrite <- (K1 p x dx Hp Ho). eapply (gradient_unique R zero one add mul sub_ opp Rring); eassumption.
    - intros q m r x dx Hq Ho Hr. rewrite <- (K2 q m r x dx Hq Ho Hr). eapply (gradient_unique R zero one add mul sub_ opp Rring); [eassumption|eassumption|].
      rewrite sub_app, Hq. cbn. exact Hr.
  Qed.
End Ring.

(** ** The two wrappers *)
Section Wrappers.
  Variable R : Type.
  Variables (zero one : R) (add mul sub_ : R -> R -> R) (opp : R -> R).
  Hypothesis Rring : ring_theory zero one add mul sub_ opp eq.
  Add Ring Rr2 : Rring.
  Notation "x + y" := (add x y). Notation "x * y" := (mul x y).
  Local Notation T := (tree (dleaf R)).
  Local Notation primal := (primal zero).
  Local Notation dot := (dot R zero add mul).
  Local Notation dots := (dots R zero add mul).

  Lemma stopped_vjp m : get_vjp R zero add mul (get_stopped zero) m (fun _ _ => zero).
  Proof using Rring.
    intros u E. unfold get_stopped. split; [rewrite E; reflexivity|]. intros h. rewrite (dot_primal R zero one add mul sub_ opp Rring), (dot_zero R zero one add mul sub_ opp Rring). reflexivity.
  Qed.

  (** Square matrices. *)
  Definition mat (k kr n : nat) (f : nat -> nat -> dleaf R) : T := Node k (map (fun i => Node kr (map (fun j => Leaf (f i j)) (seq 0 n))) (seq 0 n)).
  Fixpoint sum (n : nat) (f : nat -> R) : R := match n with O => zero | S n => sum n f + f n end.
  Definition tan (a : dleaf R) : R := match a with Dual _ dx => dx | Other _ => zero end.
  Lemma sum_ext n f g : (forall i, i < n -> f i = g i) -> sum n f = sum n g.
  Proof using. induction n as [|n IH]; intros H; [reflexivity|]. cbn. rewrite IH by (intros; apply H; lia). rewrite H by lia. reflexivity. Qed.
  Lemma sum_add n f g : sum n (fun i => f i + g i) = sum n f + sum n g.
  Proof using Rring. induction n as [|n IH]; cbn; [ring|]. rewrite IH. ring. Qed.
  Lemma sum_zero n : sum n (fun _ => zero) = zero.
  Proof using Rring. induction n as [|n IH]; cbn; [reflexivity|]. rewrite IH. ring. Qed.
  Lemma sum_swap n m f : sum n (fun i => sum m (fun j => f i j)) = sum m (fun j => sum n (fun i => f i j)).
  Proof using Rring. induction n as [|n IH]; cbn; [symmetry; apply sum_zero|]. rewrite IH. symmetry. apply sum_add. Qed.
  Lemma dots_seq (h : path -> R) (f : nat -> T) n : forall a, dots h a (map f (seq a n)) = sum n (fun i => dot (fun r => h ((a + i)%nat :: r)) (f (a + i)%nat)).
  Proof using Rring.
    assert (E : forall (f : nat -> R) n, sum (S n) f = f O + sum n (fun i => f (S i))).
    { intros f0 n0. induction n0 as [|n0 IH0]; [cbn; ring|]. change (sum (S (S n0)) f0) with (sum (S n0) f0 + f0 (S n0)). rewrite IH0. cbn [sum]. ring. }
    induction n as [|n IH]; intros a; [reflexivity|]. rewrite E. cbn [seq map SharedGrad_Props.dots]. rewrite IH, Nat.add_0_r. f_equal. apply sum_ext. intros i _. rewrite Nat.add_succ_r. reflexivity.
  Qed.
  Lemma dot_leaf (h : path -> R) a : dot h (Leaf a) = h [] * tan a.
  Proof using Rring. destruct a; cbn; [reflexivity|ring]. Qed.
  Lemma dot_mat h k kr n f : dot h (mat k kr n f) = sum n (fun i => sum n (fun j => h [i; j] * tan (f i j))).
  Proof using Rring.
    unfold mat. rewrite dot_node, dots_seq. apply sum_ext. intros i _. cbn [Nat.add]. rewrite dot_node.
    rewrite (dots_seq (fun r => h (i :: r)) (fun j => Leaf (f i j))). apply sum_ext. intros j _. cbn [Nat.add]. apply dot_leaf.
  Qed.
  Lemma nth_error_seq n : forall a i, nth_error (seq a n) i = if Nat.ltb i n then Some (a + i)%nat else None.
  Proof using. induction n as [|n IH]; intros a [|i]; cbn [seq nth_error]; try reflexivity; [rewrite Nat.add_0_r; reflexivity|]. rewrite IH, Nat.add_succ_r. reflexivity. Qed.
  Lemma mapi_map {X Y Z} (f : nat -> Y -> Z) (g : X -> Y) l : forall a, mapi f a (map g l) = mapi (fun i x => f i (g x)) a l.
  Proof using. induction l as [|x l IH]; intros a; [reflexivity|]. cbn. f_equal. apply IH. Qed.
  Lemma mapi_seq {Z} (f : nat -> nat -> Z) n : forall a, mapi f a (seq a n) = map (fun i => f i i) (seq a n).
  Proof using. induction n as [|n IH]; intros a; [reflexivity|]. cbn. f_equal. apply IH. Qed.
  Lemma map_seq_ext {Z} (f g : nat -> Z) n : (forall i, i < n -> f i = g i) -> map f (seq 0 n) = map g (seq 0 n).
  Proof using. intros H. apply map_ext_in. intros i Hi. apply in_seq in Hi. apply H. lia. Qed.
  Variable half : R.
  Lemma symmetric_mat k kr n f : get_symmetric add mul half (mat k kr n f) = mat k kr n (fun i j => mean add mul half (f i j) (f j i)).
  Proof using.
    unfold mat, get_symmetric. f_equal. rewrite mapi_map, mapi_seq. apply map_seq_ext. intros i Hi. f_equal. rewrite mapi_map, mapi_seq. apply map_seq_ext. intros j Hj.
    unfold transposed. rewrite nth_error_map, nth_error_seq. destruct (Nat.ltb_spec j n); [|lia]. cbn [option_map Nat.add]. rewrite nth_error_map, nth_error_seq. destruct (Nat.ltb_spec i n); [|lia]. reflexivity.
  Qed.
  Lemma primal_mat k kr n f u : lmap primal u = lmap primal (mat k kr n f) -> exists f', u = mat k kr n f' /\ forall i j, i < n -> j < n -> primal (f' i j) = primal (f i j).
  Proof using.
    intros E. destruct u as [a| |k' rows]; try discriminate. unfold mat in E. cbn [lmap] in E. injection E as -> E. rewrite map_map in E.
    assert (G : forall a m rows, map (lmap primal) rows = map (fun i => lmap primal (Node kr (map (fun j => Leaf (f i j)) (seq 0 n)))) (seq a m) ->
      exists f', rows = map (fun i => Node kr (map (fun j => Leaf (f' i j)) (seq 0 n))) (seq a m) /\ forall i j, a <= i < a + m -> j < n -> primal (f' i j) = primal (f i j)).
    { clear. intros a m. revert a. induction m as [|m IH]; intros a [|row rows] E; try discriminate.
      - exists f. split; [reflexivity|]. intros; lia.
      - cbn [seq map] in E. injection E as E0 E. destruct (IH (S a) rows E) as (f1 & -> & H1). destruct row as [b| |kr' xs]; try discriminate. cbn [lmap] in E0. injection E0 as -> E0. rewrite map_map in E0.
        assert (K : forall b m xs, map (lmap primal) xs = map (fun j => lmap primal (Leaf (f a j))) (seq b m) ->
          exists g', xs = map (fun j => Leaf (g' j)) (seq b m) /\ forall j, b <= j < b + m -> primal (g' j) = primal (f a j)).
        { clear. intros b m. revert b. induction m as [|m IH]; intros b [|x xs] E; try discriminate.
          - exists (f a). split; [reflexivity|]. intros; lia.
          - cbn [seq map] in E. injection E as E0 E. destruct (IH (S b) xs E) as (g1 & -> & H1). destruct x as [c| |]; try discriminate. cbn in E0. injection E0 as E0.
            exists (fun j => if Nat.eqb j b then c else g1 j). split.
            + cbn [seq map]. rewrite Nat.eqb_refl. f_equal. apply map_ext_in. intros j Hj. apply in_seq in Hj. destruct (Nat.eqb_spec j b); [lia|reflexivity].
            + intros j Hj. destruct (Nat.eqb_spec j b) as [->|]; [exact E0|]. apply H1. lia. }
        destruct (K 0 n xs E0) as (g' & -> & H2). exists (fun i j => if Nat.eqb i a then g' j else f1 i j). split.
        + cbn [seq map]. rewrite Nat.eqb_refl. f_equal. apply map_ext_in. intros i Hi. apply in_seq in Hi. destruct (Nat.eqb_spec i a); [lia|reflexivity].
        + intros i j Hi Hj. destruct (Nat.eqb_spec i a) as [->|]; [apply H2; lia|]. apply H1; lia. }
    destruct (G 0 n rows E) as (f' & -> & H). exists f'. split; [reflexivity|]. intros i j Hi Hj. apply H; lia.
  Qed.
  Definition pull_symmetric (h : path -> R) (p : path) : R := match p with [i; j] => half * (h [i; j] + h [j; i]) | _ => zero end.
  Definition numbers (n : nat) (f : nat -> nat -> dleaf R) : Prop := forall i j, i < n -> j < n -> exists x dx, f i j = Dual x dx.
  Lemma symmetric_vjp k kr n f : numbers n f -> get_vjp R zero add mul (get_symmetric add mul half) (mat k kr n f) pull_symmetric.
  Proof using Rring.
    intros N u E. apply primal_mat in E as (f' & -> & H). rewrite !symmetric_mat.
    assert (N' : numbers n f'). { intros i j Hi Hj. specialize (H i j Hi Hj). destruct (N i j Hi Hj) as (x & dx & Ef). rewrite Ef in H. destruct (f' i j) as [y dy|]; [eauto|discriminate]. }
    split.
    - unfold mat. cbn [lmap]. f_equal. rewrite !map_map. apply map_seq_ext. intros i Hi. cbn [lmap]. f_equal. rewrite !map_map. apply map_seq_ext. intros j Hj. cbn [lmap]. f_equal.
      pose proof (H i j Hi Hj) as H1. pose proof (H j i Hj Hi) as H2. destruct (N i j Hi Hj) as (x & dx & E1), (N j i Hj Hi) as (y & dy & E2), (N' i j Hi Hj) as (x' & dx' & E3), (N' j i Hj Hi) as (y' & dy' & E4).
      rewrite E1, E3 in *. rewrite E2, E4 in *. cbn in *. injection H1 as ->. injection H2 as ->. reflexivity.
    - intros h. rewrite !dot_mat.
      transitivity (sum n (fun i => sum n (fun j => half * (h [i; j] * tan (f' i j)))) + sum n (fun i => sum n (fun j => half * (h [i; j] * tan (f' j i))))).
      { rewrite <- sum_add. apply sum_ext. intros i Hi. rewrite <- sum_add. apply sum_ext. intros j Hj.
        destruct (N' i j Hi Hj) as (x' & dx' & E3), (N' j i Hj Hi) as (y' & dy' & E4). rewrite E3, E4. cbn. ring. }
      rewrite (sum_swap n n (fun i j => half * (h [i; j] * tan (f' j i)))). rewrite <- sum_add. apply sum_ext. intros i Hi. rewrite <- sum_add. apply sum_ext. intros j Hj.
      cbn [pull_symmetric]. ring.
  Qed.
  Lemma sub_mat k kr n f i j : i < n -> j < n -> sub (mat k kr n f) [i; j] = Some (Leaf (f i j)).
  Proof using.
    intros Hi Hj. unfold mat. cbn [sub]. rewrite nth_error_map, nth_error_seq. destruct (Nat.ltb_spec i n); [|lia]. cbn [option_map Nat.add]. rewrite nth_error_map, nth_error_seq. destruct (Nat.ltb_spec j n); [|lia]. reflexivity.
  Qed.
  Lemma descend_mat lr g k kr n f : descend mul sub_ lr g (mat k kr n f) =
    mat k kr n (fun i j => match f i j with Dual x dx => Dual (sub_ x (lr * g [i; j])) dx | Other m => Other m end).
  Proof using.
    unfold mat. rewrite descend_node. f_equal.
    assert (G : forall (g : path -> R) (F : nat -> T) m a, descends R mul sub_ lr g a (map F (seq a m)) = map (fun i => descend mul sub_ lr (fun r => g (i :: r)) (F i)) (seq a m)).
    { clear. intros g F m. induction m as [|m IH]; intros a; [reflexivity|]. cbn [seq map descends]. f_equal. apply IH. }
    rewrite G. apply map_seq_ext. intros i Hi. rewrite descend_node. f_equal. rewrite G. apply map_seq_ext. intros j Hj. destruct (f i j); reflexivity.
  Qed.
  Lemma step_difference x y a : sub_ (sub_ x a) (sub_ y a) = sub_ x y.
  Proof using Rring. ring. Qed.
  Lemma half_twice z : half + half = one -> half * (z + z) = z.
  Proof using Rring. intros H. transitivity ((half + half) * z); [ring|]. rewrite H. ring. Qed.
  Lemma step_mean x y a : half + half = one -> half * (sub_ x a + sub_ y a) = sub_ (half * (x + y)) a.
  Proof using Rring. intros H. transitivity (sub_ (half * (x + y)) (half * (a + a))); [ring|]. rewrite half_twice by exact H. reflexivity. Qed.
  Lemma mean_comm x y : half * (x + y) = half * (y + x).
  Proof using Rring. ring. Qed.
End Wrappers.

(** ** The theorems *)

(** C121. If [get] is differentiable at the wrapped parameters, the gradient of a loss that resolves the wrappers first is at a wrapped parameter the
    transpose of [get], applied to the gradient of the loss at the place of the wrapper, and the gradient of the loss anywhere else. *)
Theorem C121_gradient : forall R (zero one : R) add mul sub_ opp, ring_theory zero one add mul sub_ opp eq ->
  forall sym get pull t g loss,
  well_formed R sym t -> differentiable R zero add mul sym get pull t ->
  is_gradient R zero add mul loss (resolve_symmetric sym get t) g ->
  (forall h, is_gradient R zero add mul (resolved_loss sym get loss) t h <->
     (forall p x dx, sub t p = Some (Leaf (Dual x dx)) -> outside R sym t p -> h p = g p) /\
     (forall q m r x dx, sub t q = Some (Node sym [m]) -> outside R sym t q -> sub m r = Some (Leaf (Dual x dx)) ->
        h (q ++ O :: r) = pull m (fun s => g (q ++ s)) r)) /\
  exists h, is_gradient R zero add mul (resolved_loss sym get loss) t h.
Proof.
  intros R zero one add mul sub_ opp HR sym get pull t g loss W D G. split.
  - intros h. split; intros H.
    + exact (gradient_wrapped R zero one add mul sub_ opp HR sym get pull t g h loss W D G H).
    + exact (wrapped_gradient R zero one add mul sub_ opp HR sym get pull t g h loss W D G H).
  - exists (wgrad R zero sym pull t g). eapply wrapped_gradient; try eassumption. apply wgrad_wrapped. exact W.
Qed.
Print Assumptions C121_gradient.

Lemma descend_zero R (zero one : R) add mul sub_ opp (HR : ring_theory zero one add mul sub_ opp eq) lr t : forall g,
  (forall p x dx, sub t p = Some (Leaf (Dual x dx)) -> g p = zero) -> descend mul sub_ lr g t = t.
Proof.
  assert (Z : forall x, sub_ x (mul lr zero) = x).
  { intros x. rewrite (Rsub_def HR), (Rmul_comm HR). assert (E : mul zero lr = zero).
    { rewrite <- (Radd_0_l HR (mul zero lr)). rewrite <- (Ropp_def HR (mul zero lr)) at 1. rewrite (Radd_comm HR (mul zero lr) (opp _)), <- (Radd_assoc HR), <- (Rdistr_l HR), (Radd_0_l HR), (Radd_comm HR), (Ropp_def HR). reflexivity. }
    rewrite E. rewrite <- (Radd_0_l HR (opp zero)), (Ropp_def HR). rewrite (Radd_comm HR). apply (Radd_0_l HR). }
  induction t as [[x dx|n]| |k cs IH] using tree_ind'; intros g H; try reflexivity.
  - cbn. rewrite (H [] x dx eq_refl), Z. reflexivity.
  - rewrite descend_node. f_equal.
    assert (G : forall n, (forall i c p x dx, nth_error cs i = Some c -> sub c p = Some (Leaf (Dual x dx)) -> g ((n + i)%nat :: p) = zero) -> descends R mul sub_ lr g n cs = cs).
    { clear H. induction IH as [|c cs Hc _ IHc]; intros n H; [reflexivity|]. cbn [descends]. f_equal.
      - apply Hc. intros p x dx Hp. specialize (H O c p x dx eq_refl Hp). rewrite Nat.add_0_r in H. exact H.
      - apply IHc. intros i c' p x dx Hi Hp. specialize (H (S i) c' p x dx Hi Hp). rewrite Nat.add_succ_r in H. exact H. }
    apply (G O). intros i c p x dx Hi Hp. apply (H (i :: p) x dx). cbn. rewrite Hi. exact Hp.
Qed.

(** C121. With [stop_gradient] as the wrapper, parameters have gradient zero and are not changed by gradient descent; nothing changes for others. *)
Theorem C121_stopped : forall R (zero one : R) add mul sub_ opp, ring_theory zero one add mul sub_ opp eq ->
  forall sym t g h loss lr, well_formed R sym t ->
  is_gradient R zero add mul loss (resolve_symmetric sym (get_stopped zero) t) g ->
  is_gradient R zero add mul (resolved_loss sym (get_stopped zero) loss) t h ->
  (forall q m, sub t q = Some (Node sym [m]) -> outside R sym t q ->
     (forall r x dx, sub m r = Some (Leaf (Dual x dx)) -> h (q ++ O :: r) = zero) /\ sub (descend mul sub_ lr h t) q = Some (Node sym [m])) /\
  (forall p x dx, sub t p = Some (Leaf (Dual x dx)) -> outside R sym t p ->
     h p = g p /\ sub (descend mul sub_ lr h t) p = Some (Leaf (Dual (sub_ x (mul lr (g p))) dx))).
Proof.
  intros R zero one add mul sub_ opp HR sym t g h loss lr W G H.
  destruct (gradient_wrapped R zero one add mul sub_ opp HR sym (get_stopped zero) (fun _ _ _ => zero) t g h loss W) as [H1 H2]; [|exact G|exact H|].
  { intros q m _ _. eapply stopped_vjp; eassumption. }
  split.
  - intros q m Hq Ho. assert (Z : forall r x dx, sub m r = Some (Leaf (Dual x dx)) -> h (q ++ O :: r) = zero) by (intros r x dx Hr; exact (H2 q m r x dx Hq Ho Hr)).
    split; [exact Z|]. rewrite descend_sub, Hq. cbn [option_map]. f_equal. apply (descend_zero R zero one add mul sub_ opp HR). intros [|[|i] p] x dx Hp; try discriminate.
    + exact (Z p x dx Hp).
    + cbn in Hp. destruct i; discriminate.
  - intros p x dx Hp Ho. pose proof (H1 p x dx Hp Ho) as E. split; [exact E|]. rewrite descend_sub, Hp. cbn. rewrite app_nil_r, E. reflexivity.
Qed.
Print Assumptions C121_stopped.

(** The wrapped parameters are square matrices of numbers. *)
Definition square {R} (sym : nat) (t : tree (dleaf R)) : Prop :=
  forall q m, sub t q = Some (Node sym [m]) -> outside R sym t q -> exists k kr n f, m = mat R k kr n f /\ numbers R n f.
(** C121. With [Symmetric] as the wrapper, the gradient at a matrix is the symmetric part of the gradient at the weight. *)
Theorem C121_symmetric : forall R (zero one : R) add mul sub_ opp, ring_theory zero one add mul sub_ opp eq ->
  forall half sym t g h loss, well_formed R sym t -> square sym t ->
  is_gradient R zero add mul loss (resolve_symmetric sym (get_symmetric add mul half) t) g ->
  is_gradient R zero add mul (resolved_loss sym (get_symmetric add mul half) loss) t h ->
  (forall q k kr n f i j, sub t q = Some (Node sym [mat R k kr n f]) -> outside R sym t q -> i < n -> j < n ->
     h (q ++ [O; i; j]) = mul half (add (g (q ++ [i; j])) (g (q ++ [j; i])))) /\
  (forall p x dx, sub t p = Some (Leaf (Dual x dx)) -> outside R sym t p -> h p = g p).
Proof.
  intros R zero one add mul sub_ opp HR half sym t g h loss W S G H.
  destruct (gradient_wrapped R zero one add mul sub_ opp HR sym (get_symmetric add mul half) (fun _ => pull_symmetric R zero add mul half) t g h loss W) as [H1 H2]; [|exact G|exact H|].
  { intros q m Hq Ho. destruct (S q m Hq Ho) as (k & kr & n & f & -> & N). eapply symmetric_vjp; eassumption. }
  split; [|exact H1]. intros q k kr n f i j Hq Ho Hi Hj. destruct (S q _ Hq Ho) as (k' & kr' & n' & f' & E & N).
  assert (Hs : sub (mat R k kr n f) [i; j] = Some (Leaf (f i j))) by (apply sub_mat; assumption).
  assert (exists x dx, f i j = Dual x dx) as (x & dx & Ef).
  { pose proof Hs as Hs'. rewrite E in Hs'. unfold mat in Hs'. cbn [sub] in Hs'. rewrite nth_error_map, nth_error_seq in Hs'. destruct (Nat.ltb_spec i n'); [|discriminate]. cbn [option_map Nat.add] in Hs'.
    rewrite nth_error_map, nth_error_seq in Hs'. destruct (Nat.ltb_spec j n'); [|discriminate]. cbn [option_map Nat.add] in Hs'. injection Hs' as <-. apply N; assumption. }
  rewrite Ef in Hs. exact (H2 q _ [i; j] x dx Hq Ho Hs).
Qed.
Print Assumptions C121_symmetric.

(** C121. Training a [Symmetric]: the weight seen by the model is always symmetric and moves along the symmetric part of its gradient; the
    antisymmetric part of the stored matrix never changes; a stored matrix that is symmetric stays so, and is the weight itself. *)
Theorem C121_symmetric_step : forall R (zero one : R) add mul sub_ opp, ring_theory zero one add mul sub_ opp eq ->
  forall half sym t g h loss lr, add half half = one -> well_formed R sym t -> square sym t ->
  is_gradient R zero add mul loss (resolve_symmetric sym (get_symmetric add mul half) t) g ->
  is_gradient R zero add mul (resolved_loss sym (get_symmetric add mul half) loss) t h ->
  forall q k kr n f, sub t q = Some (Node sym [mat R k kr n f]) -> outside R sym t q ->
  exists f', sub (descend mul sub_ lr h t) q = Some (Node sym [mat R k kr n f']) /\
    forall i j x dx y dy, i < n -> j < n -> f i j = Dual x dx -> f j i = Dual y dy ->
    exists x' y', f' i j = Dual x' dx /\ f' j i = Dual y' dy /\
      sub_ x' y' = sub_ x y /\
      sub (get_symmetric add mul half (mat R k kr n f)) [i; j] = Some (Leaf (Dual (mul half (add x y)) (mul half (add dx dy)))) /\
      sub (get_symmetric add mul half (mat R k kr n f')) [i; j] =
        Some (Leaf (Dual (sub_ (mul half (add x y)) (mul lr (mul half (add (g (q ++ [i; j])) (g (q ++ [j; i])))))) (mul half (add dx dy)))) /\
      sub (get_symmetric add mul half (mat R k kr n f')) [i; j] = sub (get_symmetric add mul half (mat R k kr n f')) [j; i] /\
      (x = y -> x' = y' /\ mul half (add x' y') = x').
Proof.
  intros R zero one add mul sub_ opp HR half sym t g h loss lr Hh W S G H q k kr n f Hq Ho.
  destruct (C121_symmetric R zero one add mul sub_ opp HR half sym t g h loss W S G H) as [HS _].
  eexists. split.
  - rewrite descend_sub, Hq. cbn [option_map]. rewrite descend_node. cbn [descends]. rewrite descend_mat. reflexivity.
  - intros i j x dx y dy Hi Hj Ei Ej. cbv beta. rewrite Ei, Ej. do 2 eexists. split; [reflexivity|]. split; [reflexivity|]. cbv beta.
    rewrite !symmetric_mat, !sub_mat by assumption. rewrite Ei, Ej. cbn [mean]. rewrite !(HS q k kr n f) by assumption.
    rewrite (Radd_comm HR (g (q ++ [j; i])) (g (q ++ [i; j]))). set (s := mul half (add (g (q ++ [i; j])) (g (q ++ [j; i])))).
    split; [eapply step_difference; eassumption|]. split; [reflexivity|]. split; [|split].
    + do 3 f_equal. eapply step_mean; eassumption.
    + do 3 f_equal; eapply mean_comm; eassumption.
    + intros ->. split; [reflexivity|eapply half_twice; eassumption].
Qed.
Print Assumptions C121_symmetric_step.

(** ** Examples *)
From Coq Require Import ZArith Qcanon.
Local Open Scope Z_scope.
(** An [Embedding] that is not to be trained. *)
Definition stopped_lm : tree (dleaf Z) := Node 5 [Node 9 [Node 6 [Leaf (Dual 10 0)]]; Node 7 [Leaf (Dual 11 0); Leaf (Dual 20 0)]].
Definition stopped_grad (p : path) : Z := match p with [1%nat; O] => 4 | [S O; S O] => 5 | _ => 0 end.
Example C121_stopped_ex : well_formed Z 9 stopped_lm /\ resolve_symmetric 9 (get_stopped 0) stopped_lm = lm 10 11 20 /\
  is_gradient Z 0 Z.add Z.mul lm_loss (resolve_symmetric 9 (get_stopped 0) stopped_lm) lm_grad /\
  is_gradient Z 0 Z.add Z.mul (resolved_loss 9 (get_stopped 0) lm_loss) stopped_lm stopped_grad /\
  descend Z.mul Z.sub 1 stopped_grad stopped_lm = Node 5 [Node 9 [Node 6 [Leaf (Dual 10 0)]]; Node 7 [Leaf (Dual 7 0); Leaf (Dual 15 0)]].
Proof.
  assert (W : well_formed Z 9 stopped_lm).
  { intros q cs H. destruct q as [|[|[|[|i]]] [|[|[|[|j]]] [|[|[|[|l]]] [|? ?]]]]; cbn in H; try discriminate; try (injection H as <-; eauto); destruct i; discriminate. }
  split; [exact W|]. split; [reflexivity|]. split; [apply (lm_gradient 10 11 20)|]. split; [|reflexivity].
  intros t H. destruct t as [x| |k [|t1 [|t2 [|]]]]; try discriminate. cbn [lmap map stopped_lm] in H. injection H as -> H1 H2.
  destruct t1 as [x| |k1 [|[x| |k3 [|[[x1 d1|n1]| |] [|]]] [|]]]; try discriminate. destruct t2 as [x| |k2 [|[[x2 d2|n2]| |] [|[[x3 d3|n3]| |] [|]]]]; try discriminate.
  cbn in H1. injection H1 as -> -> ->. cbn in H2. injection H2 as -> -> ->. unfold resolved_loss. cbn [resolve_symmetric]. cbn. f_equal. ring.
Qed.
(** A symmetric weight: the loss has derivative 4 at one entry off the diagonal, and both entries move by 2. *)
Local Open Scope Qc_scope.
Definition qhalf : Qc := Q2Qc (1 # 2).
Definition qd (x : Z) : dleaf Qc := Dual (Q2Qc (inject_Z x)) 0.
Definition sym_model (a b c d : Z) : tree (dleaf Qc) := Node 5 [Node 9 [mat Qc 3 4 2 (fun i j => match i, j with O, O => qd a | O, _ => qd b | _, O => qd c | _, _ => qd d end)]].
Definition sym_grad (p : path) : Qc := match p with [O; O; S O] => Q2Qc (inject_Z 4) | _ => 0 end.
Definition sym_h (p : path) : Qc := match p with [O; O; O; S O] | [O; O; S O; O] => Q2Qc (inject_Z 2) | _ => 0 end.
Definition sym_loss (t : tree (dleaf Qc)) : res Qc :=
  match sub t [O; O; 1%nat] with Some (Leaf (Dual _ dx)) => Ok (Q2Qc (inject_Z 4) * dx) | _ => Err TypeError end.
Definition shown (t : tree (dleaf Qc)) : tree Q := lmap (fun a => match a with Dual x _ => this x | Other _ => 0%Q end) t.
Example C121_symmetric_ex : qhalf + qhalf = 1 /\
  sym_h [O; O; O; 1%nat] = qhalf * (sym_grad [O; O; 1%nat] + sym_grad [O; 1%nat; O]) /\
  shown (descend Qcmult Qcminus 1 sym_h (sym_model 1 6 2 5)) = shown (sym_model 1 4 0 5) /\
  shown (resolve_symmetric 9 (get_symmetric Qcplus Qcmult qhalf) (sym_model 1 6 2 5)) = lmap (fun x => inject_Z x) (Node 5 [Node 3 [Node 4 [Leaf 1%Z; Leaf 4%Z]; Node 4 [Leaf 4%Z; Leaf 5%Z]]]) /\
  shown (resolve_symmetric 9 (get_symmetric Qcplus Qcmult qhalf) (sym_model 1 4 0 5)) = lmap (fun x => inject_Z x) (Node 5 [Node 3 [Node 4 [Leaf 1%Z; Leaf 2%Z]; Node 4 [Leaf 2%Z; Leaf 5%Z]]]).
Proof. repeat split; try (apply Qc_is_canon; reflexivity); vm_compute; reflexivity. Qed.
Lemma qsub (t : tree (dleaf Qc)) f : lmap (primal 0) t = lmap (primal 0) (Node 5 [mat Qc 3 4 2 f]) -> exists f', t = Node 5 [mat Qc 3 4 2 f'] /\ forall i j, (i < 2)%nat -> (j < 2)%nat -> primal 0 (f' i j) = primal 0 (f i j).
Proof.
  intros H. destruct t as [x| |k [|t1 [|]]]; try discriminate. change (lmap (primal 0) (Node 5 [mat Qc 3 4 2 f])) with (Node 5 [lmap (primal 0) (mat Qc 3 4 2 f)]) in H. cbn [lmap map] in H.
  assert (H1 : k = 5%nat) by congruence. subst k. assert (H2 : lmap (primal 0) t1 = lmap (primal 0) (mat Qc 3 4 2 f)) by congruence.
  apply primal_mat in H2 as (f' & -> & H2). eauto.
Qed.
Example C121_symmetric_ex_gradient : forall f, numbers Qc 2 f -> is_gradient Qc 0 Qcplus Qcmult sym_loss (Node 5 [mat Qc 3 4 2 f]) sym_grad.
Proof.
  intros f N t H. apply qsub in H as (f' & -> & H). destruct (N O 1%nat) as (x & dx & E); [lia|lia|]. specialize (H O 1%nat ltac:(lia) ltac:(lia)). rewrite E in H.
  unfold sym_loss. change (sub (Node 5 [mat Qc 3 4 2 f']) [O; O; 1%nat]) with (sub (mat Qc 3 4 2 f') [O; 1%nat]). rewrite sub_mat by lia.
  destruct (f' O 1%nat) as [y dy|] eqn:Ef; [|discriminate]. rewrite dot_node. cbn [SharedGrad_Props.dots]. rewrite (dot_mat Qc 0 1 Qcplus Qcmult Qcminus Qcopp Qcrt). cbn [sum sym_grad tan]. rewrite Ef. cbn [tan]. f_equal. ring.
Qed.
