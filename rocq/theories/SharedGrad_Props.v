(** C119: gradients of tied nodes. *)
From Coq Require Import Ring.
From Verif Require Import SharedGrad_Model Shared_Proofs Shared_Props.
Local Open Scope nat_scope.
Local Open Scope list_scope.

Fixpoint strip (q p : path) : option path :=
  match q, p with [], p => Some p | i :: q, j :: p => if Nat.eqb i j then strip q p else None | _ :: _, [] => None end.
Lemma strip_app q p : strip q (q ++ p) = Some p.
Proof. induction q as [|i q IH]; [reflexivity|]. cbn. rewrite Nat.eqb_refl. exact IH. Qed.

Fixpoint upd {X} (l : list X) (i : nat) (x : X) : list X := match l, i with [], _ => [] | _ :: l, O => x :: l | y :: l, S i => y :: upd l i x end.
Fixpoint put {A} (t : tree A) (p : path) (v : tree A) : tree A :=
  match p with
  | [] => v
  | i :: p => match t with Node k cs => match nth_error cs i with Some c => Node k (upd cs i (put c p v)) | None => t end | _ => t end
  end.
Lemma upd_nth {X} (l : list X) : forall i j x, i < length l -> nth_error (upd l i x) j = if Nat.eqb i j then Some x else nth_error l j.
Proof.
  induction l as [|y l IH]; intros i j x H; [cbn in H; lia|]. destruct i as [|i]; destruct j as [|j]; cbn [upd nth_error Nat.eqb]; try reflexivity.
  apply IH. cbn in H. lia.
Qed.
Lemma upd_length {X} (l : list X) : forall i x, length (upd l i x) = length l.
Proof. induction l as [|y l IH]; intros [|i] x; cbn [upd length]; auto. Qed.
Lemma put_edited {A} (v : tree A) p : forall t, sub t p <> None -> edited t [(p, v)] (put t p v).
Proof.
  induction p as [|i p IH]; intros t H; cbn [put].
  - split.
    + intros p r [E|[]]. injection E as <- <-. reflexivity.
    + intros q Hq. exfalso. apply (Hq [] v); [left; reflexivity|]. apply prefix_nil.
  - cbn [sub] in H. destruct t as [a| |k cs]; try congruence. destruct (nth_error cs i) as [c|] eqn:E; [|congruence].
    assert (Hi : i < length cs) by (apply nth_error_Some; congruence). destruct (IH c H) as [H1 H2]. split.
    + intros p' r [X|[]]. injection X as <- <-. cbn [sub]. rewrite upd_nth by exact Hi. rewrite Nat.eqb_refl. apply H1. left. reflexivity.
    + intros q Hq. destruct q as [|j q]; [unfold label_at; cbn [sub option_map label_of]; rewrite upd_length; reflexivity|]. rewrite !label_at_cons. rewrite upd_nth by exact Hi. destruct (Nat.eqb_spec i j) as [<-|Hn]; [|reflexivity].
      rewrite E. apply H2. intros p' r [X|[]]. injection X as <- <-. intros HP. apply (Hq (i :: p) v); [left; reflexivity|]. apply prefix_cons. auto.
Qed.
Fixpoint puts {A} (t : tree A) (l : list (path * tree A)) : tree A := match l with [] => t | (p, v) :: l => puts (put t p v) l end.
Lemma puts_edited {A} (l : list (path * tree A)) : forall t, separate (map fst l) -> (forall p, In p (map fst l) -> sub t p <> None) -> edited t l (puts t l).
Proof.
  induction l as [|[p v] l IH]; intros t HS H; cbn [puts].
  - split; [intros p r []|]. reflexivity.
  - cbn [map fst] in *. destruct HS as [HD HN]. inversion HD as [|? ? Hp HD']; subst.
    assert (HU : forall q, In q (map fst l) -> ~ prefix p q /\ ~ prefix q p).
    { intros q Hq. assert (Hne : p <> q) by (intros ->; contradiction). split; intros X; apply prefix_cases in X as [X|X]; try congruence.
      - apply (HN p q); [left; reflexivity|right; exact Hq|exact X].
      - apply (HN q p); [right; exact Hq|left; reflexivity|exact X]. }
    pose proof (put_edited v p t (H p (or_introl eq_refl))) as E1. change ((p, v) :: l) with ([(p, v)] ++ l). eapply edited_compose; [exact E1| |].
    + apply IH; [split; [exact HD'|intros a b Ha Hb; apply HN; right; assumption]|]. intros q Hq.
      rewrite (edited_untouched t [(p, v)] (put t p v) q E1); [apply H; right; exact Hq|]. intros q' r [X|[]]. injection X as <- <-. destruct (HU q Hq). auto.
    + intros p' r q s [X|[]] Hin. injection X as <- <-. apply HU. apply in_map_iff. exists (q, s). auto.
Qed.
Lemma lmap_nth {A B} (g : A -> B) cs i : nth_error (map (lmap g) cs) i = option_map (lmap g) (nth_error cs i).
Proof. apply nth_error_map. Qed.
Lemma map_upd {X Y} (f : X -> Y) l : forall i x, map f (upd l i x) = upd (map f l) i (f x).
Proof. induction l as [|y l IH]; intros [|i] x; cbn [upd map]; try reflexivity. rewrite IH. reflexivity. Qed.
Lemma lmap_put {A B} (g : A -> B) v p : forall t, lmap g (put t p v) = put (lmap g t) p (lmap g v).
Proof.
  induction p as [|i p IH]; intros t; [reflexivity|]. destruct t as [a| |k cs]; try reflexivity. cbn [put lmap]. rewrite lmap_nth. destruct (nth_error cs i) as [c|]; cbn [option_map]; [|reflexivity].
  cbn [lmap]. rewrite map_upd, IH. reflexivity.
Qed.
Lemma lmap_puts {A B} (g : A -> B) l : forall t, lmap g (puts t l) = puts (lmap g t) (map (fun pv => (fst pv, lmap g (snd pv))) l).
Proof. induction l as [|[p v] l IH]; intros t; [reflexivity|]. cbn [puts map fst snd]. rewrite IH, lmap_put. reflexivity. Qed.
Lemma lmap_sub {A B} (g : A -> B) p : forall t, sub (lmap g t) p = option_map (lmap g) (sub t p).
Proof.
  induction p as [|i p IH]; intros t; [reflexivity|]. destruct t as [a| |k cs]; try reflexivity. cbn [sub lmap]. rewrite lmap_nth. destruct (nth_error cs i) as [c|]; cbn [option_map]; [apply IH|reflexivity].
Qed.

Section Ring.
  Variable R : Type.
  Variables (zero one : R) (add mul sub_ : R -> R -> R) (opp : R -> R).
  Hypothesis Rring : ring_theory zero one add mul sub_ opp eq.
  Add Ring Rr : Rring.
  Notation "x + y" := (add x y). Notation "x * y" := (mul x y).
  Local Notation T := (tree (dleaf R)).
  Local Notation primal := (primal zero).
  Variable aeq : dleaf R -> dleaf R -> bool.
  Hypothesis aeq_refl : forall a, aeq a a = true.
  Variable St : Type.
  Variable struct : dleaf R -> St.
  Variable seqb : St -> St -> bool.
  Local Notation call := (shared_call aeq).
  (** The placeholder is an object without a tangent. *)
  Variable placeholder : nat.
  Local Notation init := (shared_init aeq (Other placeholder) struct seqb).

  (** A gradient (a number for each position) applied to the tangents in a tree. *)
  Fixpoint dot (g : path -> R) (t : T) : R :=
    match t with
    | Leaf (Dual _ dx) => g [] * dx
    | Leaf (Other _) => zero
    | TNone => zero
    | Node _ cs => (fix go (i : nat) (l : list T) : R := match l with [] => zero | c :: l => dot (fun r => g (i :: r)) c + go (S i) l end) O cs
    end.
  (** [g] is the gradient of the loss with derivative [f] at the primals of [t0]. *)
  Definition is_gradient (f : T -> res R) (t0 : T) (g : path -> R) : Prop :=
    forall t, lmap primal t = lmap primal t0 -> f t = Ok (dot g t).

  Fixpoint dots (g : path -> R) (i : nat) (l : list T) : R := match l with [] => zero | c :: l => dot (fun r => g (i :: r)) c + dots g (S i) l end.
  Lemma dot_node g k cs : dot g (Node k cs) = dots g O cs.
  Proof using. cbn [dot]. generalize O. induction cs as [|c cs IH]; intros i; [reflexivity|]. cbn [dots]. rewrite <- IH. reflexivity. Qed.
  Lemma dot_ext g h t : (forall p, g p = h p) -> dot g t = dot h t.
  Proof using.
    revert g h. induction t as [[x dx|n]| |k cs IH] using tree_ind'; intros g h H; try reflexivity; [cbn [dot]; rewrite H; reflexivity|].
    rewrite !dot_node. generalize O. induction IH as [|c cs Hc _ IHc]; intros i; [reflexivity|]. cbn [dots]. rewrite (Hc _ (fun r => h (i :: r))) by (intros r; apply H). rewrite IHc. reflexivity.
  Qed.
  Lemma dot_add g h t : dot (fun p => g p + h p) t = dot g t + dot h t.
  Proof using Rring.
    revert g h. induction t as [[x dx|n]| |k cs IH] using tree_ind'; intros g h; try (cbn [dot]; ring).
    rewrite !dot_node. generalize O. induction IH as [|c cs Hc _ IHc]; intros i; [cbn [dots]; ring|]. cbn [dots]. rewrite (Hc (fun r => g (i :: r)) (fun r => h (i :: r))). rewrite IHc. ring.
  Qed.
  Lemma dot_zero t : dot (fun _ => zero) t = zero.
  Proof using Rring.
    induction t as [[x dx|n]| |k cs IH] using tree_ind'; try (cbn [dot]; ring). rewrite dot_node. generalize O. induction IH as [|c cs Hc _ IHc]; intros i; [reflexivity|]. cbn [dots].
    rewrite Hc, IHc. ring.
  Qed.
  Lemma dots_upd g cs : forall i j c v, nth_error cs j = Some c -> dots g i (upd cs j v) + dot (fun r => g (i + j :: r)%nat) c = dots g i cs + dot (fun r => g (i + j :: r)%nat) v.
  Proof using Rring.
    induction cs as [|d cs IH]; intros i j c v H; [destruct j; discriminate|]. destruct j as [|j]; cbn [nth_error upd dots] in *.
    - injection H as ->. rewrite Nat.add_0_r. ring.
    - specialize (IH (S i) j c v H). replace (i + S j)%nat with (S i + j)%nat by (rewrite Nat.add_succ_r; reflexivity).
      transitivity (dot (fun r => g (i :: r)) d + (dots g (S i) (upd cs j v) + dot (fun r => g (S i + j :: r)%nat) c)); [ring|]. rewrite IH. ring.
  Qed.
  Lemma cancel (a b c d : R) : a + b = c + (b + d) -> a = c + d.
  Proof using Rring. intros X. transitivity ((a + b) + opp b); [ring|]. rewrite X. ring. Qed.
  Lemma dot_put_gen v p : forall g t w, sub t p = Some w -> dot g (put t p v) + dot (fun r => g (p ++ r)) w = dot g t + dot (fun r => g (p ++ r)) v.
  Proof using Rring.
    induction p as [|i p IH]; intros g t w H; cbn [sub put] in *.
    - injection H as ->. cbn [app]. change (fun r => g r) with g. ring.
    - destruct t as [a| |k cs]; try discriminate. destruct (nth_error cs i) as [c|] eqn:E; [|discriminate]. rewrite !dot_node.
      pose proof (dots_upd g cs O i c (put c p v) E) as D. cbn [Nat.add] in D. pose proof (IH (fun r => g (i :: r)) c w H) as I. cbn [app].
      match type of D with ?a + ?b = ?c + ?d => match type of I with d + ?e = b + ?f =>
        assert (C : a + e = c + f) by (transitivity ((a + b) + e + opp b); [ring|]; rewrite D; transitivity (c + (d + e) + opp b); [ring|]; rewrite I; ring) end end.
      exact C.
  Qed.
  Lemma dot_put v p : forall g t n, sub t p = Some (Leaf (Other n)) -> dot g (put t p v) = dot g t + dot (fun r => g (p ++ r)) v.
  Proof using Rring. intros g t n H. rewrite <- (dot_put_gen v p g t _ H). cbn [dot]. ring. Qed.
  Lemma dot_at v q : forall h t, sub t q = Some v -> dot (fun p => match strip q p with Some r => h r | None => zero end) t = dot h v.
  Proof using Rring.
    induction q as [|i q IH]; intros h t H; cbn [sub] in H.
    - injection H as ->. apply dot_ext. reflexivity.
    - destruct t as [a| |k cs]; try discriminate. destruct (nth_error cs i) as [c|] eqn:E; [|discriminate]. rewrite dot_node. rewrite <- (IH h c H). clear H IH.
      assert (G : forall m cs i, nth_error cs i = Some c ->
        dots (fun p => match strip ((m + i)%nat :: q) p with Some r => h r | None => zero end) m cs = dot (fun p => match strip q p with Some r => h r | None => zero end) c).
      { assert (Z : forall cs m j, j < m -> dots (fun p => match strip (j :: q) p with Some r => h r | None => zero end) m cs = zero).
        { clear - Rring. induction cs as [|d cs IH]; intros m j Hj; [reflexivity|]. cbn [dots]. rewrite (IH (S m) j) by (apply Nat.lt_lt_succ_r; exact Hj). cbn [strip].
          destruct (Nat.eqb_spec j m) as [->|_]; [destruct (Nat.lt_irrefl _ Hj)|]. rewrite dot_zero. ring. }
        clear - Z Rring. intros m cs. revert m. induction cs as [|d cs IH]; intros m [|i] E; cbn [nth_error] in E; try discriminate.
        - injection E as ->. rewrite Nat.add_0_r. cbn [dots]. rewrite (Z cs (S m) m) by apply Nat.lt_succ_diag_r. cbn [strip]. rewrite Nat.eqb_refl. ring.
        - rewrite Nat.add_succ_r. cbn [dots]. change (S (m + i)%nat) with (S m + i)%nat. rewrite (IH (S m) i E).
          cbn [strip]. destruct (Nat.eqb_spec (S m + i)%nat m) as [X|_].
          + exfalso. clear - X. lia.
          + rewrite dot_zero. ring. }
      exact (G O cs i E).
  Qed.

  Lemma dot_primal g t : dot g (lmap primal t) = zero.
  Proof using Rring.
    revert g. induction t as [[x dx|n]| |k cs IH] using tree_ind'; intros g; try (cbn; ring). cbn [lmap]. rewrite dot_node. generalize O. induction IH as [|c cs Hc _ IHc]; intros i; [reflexivity|]. cbn [map dots].
    rewrite Hc, IHc. ring.
  Qed.
  Lemma put_same {A} (w : tree A) p : forall t, sub t p = Some w -> put t p w = t.
  Proof using.
    induction p as [|i p IH]; intros t H; cbn [sub put] in *; [congruence|]. destruct t as [a| |k cs]; try reflexivity. destruct (nth_error cs i) as [c|] eqn:E; [|discriminate]. rewrite (IH c H). f_equal.
    clear - E. revert i E. induction cs as [|d cs IH]; intros [|i] E; cbn [nth_error upd] in *; try discriminate; [congruence|]. rewrite IH by exact E. reflexivity.
  Qed.
  Lemma lmap_primal2 t : lmap primal (lmap primal t) = lmap primal t.
  Proof using.
    induction t as [[x dx|n]| |k cs IH] using tree_ind'; try reflexivity. cbn [lmap]. f_equal. induction IH as [|c cs Hc _ IHc]; [reflexivity|]. cbn [map]. rewrite Hc, IHc. reflexivity.
  Qed.
  Lemma gradient_unique f t g h p x dx : is_gradient f t g -> is_gradient f t h -> sub t p = Some (Leaf (Dual x dx)) -> g p = h p.
  Proof using Rring.
    intros Hg Hh Hp. set (t' := put (lmap primal t) p (Leaf (Dual x one))).
    assert (Hs : sub (lmap primal t) p = Some (Leaf (Dual x zero))) by (rewrite lmap_sub, Hp; reflexivity).
    assert (HP : lmap primal t' = lmap primal t) by (unfold t'; rewrite lmap_put, lmap_primal2; cbn [lmap primal SharedGrad_Model.primal]; apply put_same; exact Hs).
    assert (E : Ok (dot g t') = Ok (dot h t')) by (rewrite <- (Hg t' HP); apply Hh; exact HP). injection E as E.
    assert (K : forall k, dot k t' = k p).
    { intros k. pose proof (dot_put_gen (Leaf (Dual x one)) p k (lmap primal t) _ Hs) as D. fold t' in D. rewrite dot_primal in D. cbn [dot] in D. rewrite app_nil_r in D.
      transitivity (dot k t' + k p * zero); [ring|]. rewrite D. ring. }
    rewrite !K in E. exact E.
  Qed.

  (** [pull] is the transpose ([jax.vjp]) of [get] at the primals of [s]. *)
  Definition is_vjp (get : T -> res T) (s : T) (pull : (path -> R) -> path -> R) : Prop :=
    exists v0, forall t, lmap primal t = lmap primal s -> exists v, get t = Ok v /\ lmap primal v = v0 /\ forall h, dot h v = dot (pull h) t.
  (** The part of the gradient that reaches the nodes [ps]. *)
  Definition at_nodes (ps : list path) (g : path -> R) (q : path) : R := match q with i :: r => g (nth i ps [] ++ r) | [] => zero end.

  Lemma dots_at_nodes g vs : forall ps0 ps n, length vs = length ps -> n = length ps0 ->
    dots (at_nodes (ps0 ++ ps) g) n vs = fold_right (fun pv a => dot (fun r => g (fst pv ++ r)) (snd pv) + a) zero (List.combine ps vs).
  Proof using.
    induction vs as [|v vs IH]; intros ps0 ps n HL Hn; destruct ps as [|p ps]; try discriminate; [reflexivity|]. cbn [dots List.combine fold_right fst snd]. f_equal.
    - apply dot_ext. intros r. cbn [at_nodes]. subst n. rewrite app_nth2, Nat.sub_diag by apply le_n. reflexivity.
    - replace (ps0 ++ p :: ps) with ((ps0 ++ [p]) ++ ps) by (rewrite <- app_assoc; reflexivity). apply IH; [injection HL; auto|]. rewrite app_length. cbn [length]. subst n. rewrite Nat.add_1_r. reflexivity.
  Qed.
  Lemma dot_puts g l : forall t, separate (map fst l) -> (forall p, In p (map fst l) -> exists n, sub t p = Some (Leaf (Other n))) ->
    dot g (puts t l) = dot g t + fold_right (fun pv a => dot (fun r => g (fst pv ++ r)) (snd pv) + a) zero l.
  Proof using Rring.
    induction l as [|[p v] l IH]; intros t HS H; cbn [puts fold_right]; [ring|]. cbn [map fst] in *. destruct (H p (or_introl eq_refl)) as [n Hn].
    destruct HS as [HD HN]. inversion HD as [|? ? Hp HD']; subst.
    rewrite IH.
    - rewrite (dot_put v p g t n Hn). cbn [fst snd]. ring.
    - split; [exact HD'|]. intros a b Ha Hb. apply HN; right; assumption.
    - intros q Hq. destruct (H q (or_intror Hq)) as [m Hm]. exists m. rewrite <- Hm. assert (Hne : p <> q) by (intros ->; contradiction).
      assert (Hsp : sub t p <> None) by congruence.
      apply (edited_untouched t [(p, v)] (put t p v) q (put_edited v p t Hsp)). intros q' r [X|[]]. injection X as <- <-.
      split; intros X; apply prefix_cases in X as [X|X]; try congruence.
      + apply (HN q p); [right; exact Hq|left; reflexivity|exact X].
      + apply (HN p q); [left; reflexivity|right; exact Hq|exact X].
  Qed.
  Lemma map_fst_combine {X Y} (l : list X) : forall (m : list Y), length m = length l -> map fst (List.combine l m) = l.
  Proof using. induction l as [|x l IH]; intros [|y m] H; try discriminate; [reflexivity|]. cbn. rewrite IH by (injection H; auto). reflexivity. Qed.
  Lemma map_combine_snd {X Y Z} (f : Y -> Z) (l : list X) : forall m, map (fun pv => (fst pv, f (snd pv))) (List.combine l m) = List.combine l (map f m).
  Proof using. induction l as [|x l IH]; intros [|y m]; try reflexivity. cbn. rewrite IH. reflexivity. Qed.
  Lemma lmap_node_inv {A B} (f : A -> B) t k ds : lmap f t = Node k ds -> exists cs, t = Node k cs /\ map (lmap f) cs = ds.
  Proof using. destruct t; cbn; intros H; try discriminate. injection H as -> <-. eauto. Qed.

  (** What a call does to a stored tree whatever numbers it holds by now. *)
  Lemma call_puts ps get t vs : separate ps -> (forall p, In p ps -> exists n, sub t p = Some (Leaf (Other n))) -> get t = Ok (Node ktuple vs) -> length vs = length ps ->
    call ps get t = Ok (puts t (List.combine ps vs)).
  Proof using aeq_refl.
    intros HS HP Hg HL. unfold shared_call. rewrite Hg. cbn [bind].
    destruct (values_ok aeq aeq_refl t ps vs HS) as [o Ho]; [|exact HL|].
    { intros p Hp. destruct (HP p Hp) as [n Hn]. exists (Leaf (Other n)). split; [exact Hn|discriminate]. }
    rewrite Ho. f_equal. destruct (put_get_many aeq no_leaf aeq_refl t ktuple ps vs o Ho (proj1 HS) (proj2 HS)) as [_ HE].
    apply (edited_unique t (List.combine ps vs)); [exact HE|]. apply puts_edited; rewrite map_fst_combine by exact HL; [exact HS|]. intros p Hp. destruct (HP p Hp) as [n Hn]. congruence.
  Qed.
  Lemma placeholders ps get t0 s : separate ps -> init ps get t0 = Ok s -> forall p, In p ps -> sub s p = Some (Leaf (Other placeholder)).
  Proof using aeq_refl.
    intros HS H p Hp. apply (init_inv aeq (Other placeholder) struct seqb aeq_refl) in H as (src & dst & vs & _ & _ & _ & _ & _ & [HE _]); [|exact HS]. apply HE.
    clear - Hp. induction ps as [|p' ps IH]; [destruct Hp|]. cbn. destruct Hp as [->|Hp]; [left; reflexivity|right; auto].
  Qed.
  Lemma primal_other t s p n : lmap primal t = lmap primal s -> sub s p = Some (Leaf (Other n)) -> sub t p = Some (Leaf (Other n)).
  Proof using.
    intros H Hp. assert (E : option_map (lmap primal) (sub t p) = Some (Leaf (Other n))) by (rewrite <- lmap_sub, H, lmap_sub, Hp; reflexivity).
    destruct (sub t p) as [[[x dx|m]| |k cs]|]; cbn in E; congruence.
  Qed.
  Lemma gradient ps get pull t0 s loss : separate ps -> ignores ps get -> init ps get t0 = Ok s -> is_vjp get s pull ->
    exists out, call ps get s = Ok out /\
      forall g, is_gradient loss out g -> is_gradient (tied_loss aeq ps get loss) s (fun q => g q + pull (at_nodes ps g) q).
  Proof using Rring aeq_refl.
    intros HS HI H [v0 HV]. pose proof (placeholders ps get t0 s HS H) as HPl.
    destruct (call_ok aeq (Other placeholder) struct seqb aeq_refl ps get t0 s HS HI H) as (vs' & out & _ & _ & _ & _).
    assert (HG : exists vs, get s = Ok (Node ktuple vs) /\ length vs = length ps).
    { pose proof H as H'. apply (init_inv aeq (Other placeholder) struct seqb aeq_refl) in H' as (src & dst & vs & Hg & HL & _ & _ & _ & HE); [|exact HS]. exists vs. split; [|exact HL]. rewrite <- Hg. apply HI. intros q Hq.
      destruct HE as [_ HE]. apply HE. intros p r Hin. apply Hq. eapply in_combine_l. exact Hin. }
    destruct HG as (vs & Hg & HL). destruct (HV s eq_refl) as (v & Hv & Hv0 & _). rewrite Hg in Hv. injection Hv as <-.
    exists (puts s (List.combine ps vs)). split; [apply call_puts; eauto|].
    intros g HGr t Ht. destruct (HV t Ht) as (w & Hw & Hw0 & Hd). rewrite <- Hv0 in Hw0. cbn [lmap] in Hw0. apply lmap_node_inv in Hw0 as (ws & -> & Hws).
    assert (HLw : length ws = length ps) by (rewrite <- HL, <- (map_length (lmap primal) ws), Hws, map_length; reflexivity).
    assert (HPt : forall p, In p ps -> exists n, sub t p = Some (Leaf (Other n))) by (intros p Hp; exists placeholder; eapply primal_other; eauto).
    unfold tied_loss. rewrite (call_puts ps get t ws HS HPt Hw HLw). cbn [bind]. rewrite HGr.
    - f_equal. rewrite dot_puts by (rewrite map_fst_combine by exact HLw; assumption). rewrite dot_add. f_equal. rewrite <- Hd, dot_node. symmetry. exact (dots_at_nodes g ws [] ps O HLw eq_refl).
    - rewrite !lmap_puts, Ht, !map_combine_snd, Hws. reflexivity.
  Qed.

  (** The nodes tied to [qs]: what [get = lambda m: (m at q1, m at q2, ...)] adds at [p]. *)
  Fixpoint tied (ps qs : list path) (g : path -> R) (p : path) : R :=
    match ps, qs with
    | p' :: ps, q :: qs => match strip q p with Some r => g (p' ++ r) | None => zero end + tied ps qs g p
    | _, _ => zero
    end.
  Fixpoint pull_values (i : nat) (qs : list path) (h : path -> R) (p : path) : R :=
    match qs with [] => zero | q :: qs => match strip q p with Some r => h (i :: r) | None => zero end + pull_values (S i) qs h p end.
  Lemma dot_pull h t qs vs : Forall2 (fun q v => sub t q = Some v) qs vs -> forall i, dots h i vs = dot (pull_values i qs h) t.
  Proof using Rring.
    induction 1 as [|q v qs vs Hq _ IH]; intros i; cbn [dots pull_values].
    - symmetry. apply dot_zero.
    - rewrite IH. rewrite (dot_add (fun p => match strip q p with Some r => h (i :: r) | None => zero end) (pull_values (S i) qs h)). f_equal. symmetry. apply (dot_at v q (fun r => h (i :: r)) t Hq).
  Qed.
  Lemma values_primal qs t s vs : lmap primal t = lmap primal s -> Forall2 (fun q v => sub s q = Some v) qs vs ->
    exists ws, Forall2 (fun q v => sub t q = Some v) qs ws /\ map (lmap primal) ws = map (lmap primal) vs.
  Proof using.
    intros Ht H. induction H as [|q v qs vs Hq _ (ws & HF & HM)]; [exists []; split; [constructor|reflexivity]|].
    assert (E : option_map (lmap primal) (sub t q) = Some (lmap primal v)) by (rewrite <- lmap_sub, Ht, lmap_sub, Hq; reflexivity).
    destruct (sub t q) as [w|] eqn:Ew; [|discriminate]. injection E as E. exists (w :: ws). split; [constructor; assumption|]. cbn. rewrite E, HM. reflexivity.
  Qed.
  Lemma values_ok' qs (t : T) vs : Forall2 (fun q v => sub t q = Some v) qs vs -> values_at qs t = Ok (Node ktuple vs).
  Proof using.
    intros H. unfold values_at. assert (E : mapM (fun p => match sub t p with Some s => Ok s | None => Err AttributeError end) qs = Ok vs).
    { induction H as [|q v qs vs Hq _ IH]; [reflexivity|]. cbn [mapM]. rewrite Hq. cbn [bind]. rewrite IH. reflexivity. }
    rewrite E. reflexivity.
  Qed.
  Lemma values_vjp qs s v : values_at qs s = Ok v -> is_vjp (values_at qs) s (pull_values O qs).
  Proof using Rring.
    intros Hv. apply values_at_Forall2 in Hv as (vs & -> & HF). exists (lmap primal (Node ktuple vs)). intros t Ht. destruct (values_primal qs t s vs Ht HF) as (ws & HFw & HM).
    exists (Node ktuple ws). split; [apply values_ok'; exact HFw|]. split; [cbn [lmap]; rewrite HM; reflexivity|]. intros h. rewrite dot_node. apply dot_pull. exact HFw.
  Qed.
  Lemma pull_tied g p : forall qs ps0 ps, length ps = length qs -> pull_values (length ps0) qs (at_nodes (ps0 ++ ps) g) p = tied ps qs g p.
  Proof using.
    induction qs as [|q qs IH]; intros ps0 ps HL; destruct ps as [|p' ps]; try discriminate; [reflexivity|]. cbn [pull_values tied]. f_equal.
    - destruct (strip q p) as [r|]; [|reflexivity]. cbn [at_nodes]. rewrite app_nth2, Nat.sub_diag by apply le_n. reflexivity.
    - replace (ps0 ++ p' :: ps) with ((ps0 ++ [p']) ++ ps) by (rewrite <- app_assoc; reflexivity). replace (S (length ps0)) with (length (ps0 ++ [p'])) by (rewrite app_length, Nat.add_1_r; reflexivity). apply IH. injection HL; auto.
  Qed.
  Lemma values_ignores qs ps : unrelated qs ps -> ignores ps (values_at qs : T -> res T).
  Proof using.
    intros HU u u' H. unfold values_at. f_equal. assert (E : forall q, In q qs -> sub u q = sub u' q).
    { intros q Hq. apply label_sub. intros r. apply H. intros p Hp HP. destruct (HU q p Hq Hp) as [N1 N2]. destruct (prefix_comparable _ _ _ HP (prefix_app q r)); contradiction. }
    clear - E. induction qs as [|q qs IH]; [reflexivity|]. cbn [mapM]. rewrite E by (left; reflexivity). rewrite IH by (intros q' Hq'; apply E; right; exact Hq'). reflexivity.
  Qed.
  Lemma stored_values ps qs t0 s : separate ps -> unrelated qs ps -> init ps (values_at qs) t0 = Ok s ->
    exists vs, Forall2 (fun q v => sub s q = Some v) qs vs /\ length vs = length ps /\ length qs = length ps.
  Proof using aeq_refl.
    intros HS HU H. pose proof H as H'. apply (init_inv aeq (Other placeholder) struct seqb aeq_refl) in H' as (src & dst & vs & Hg & HL & _ & _ & _ & [_ HE]); [|exact HS].
    rewrite (values_ignores qs ps HU t0 s) in Hg.
    - apply values_at_Forall2 in Hg as (vs' & E & HF). injection E as <-. exists vs. split; [exact HF|]. split; [exact HL|]. rewrite <- HL. clear - HF. induction HF; cbn; congruence.
    - intros q Hq. symmetry. apply HE. intros p r Hin. apply Hq. eapply in_combine_l. exact Hin.
  Qed.
  Lemma shared_gradient ps qs t0 s loss : separate ps -> unrelated qs ps -> init ps (values_at qs) t0 = Ok s ->
    exists out, call ps (values_at qs) s = Ok out /\
      forall g, is_gradient loss out g -> is_gradient (tied_loss aeq ps (values_at qs) loss) s (fun p => g p + tied ps qs g p).
  Proof using Rring aeq_refl.
    intros HS HU H. destruct (stored_values ps qs t0 s HS HU H) as (vs & HF & HL & HLq).
    destruct (gradient ps (values_at qs) (pull_values O qs) t0 s loss HS (values_ignores qs ps HU) H (values_vjp qs s _ (values_ok' qs s vs HF))) as (out & Hc & HG).
    exists out. split; [exact Hc|]. intros g Hg t Ht. rewrite (HG g Hg t Ht). f_equal. apply dot_ext. intros p. f_equal. exact (pull_tied g p qs [] ps (eq_sym HLq)).
  Qed.

  Local Notation descend := (descend mul sub_).
  Fixpoint descends (lr : R) (g : path -> R) (i : nat) (l : list T) : list T := match l with [] => [] | c :: l => descend lr (fun r => g (i :: r)) c :: descends lr g (S i) l end.
  Lemma descend_node lr g k cs : descend lr g (Node k cs) = Node k (descends lr g O cs).
  Proof using. cbn [SharedGrad_Model.descend]. f_equal. generalize O. induction cs as [|c cs IH]; intros i; [reflexivity|]. cbn [descends]. rewrite <- IH. reflexivity. Qed.
  Lemma descends_nth lr g cs : forall n i, nth_error (descends lr g n cs) i = option_map (descend lr (fun r => g ((n + i)%nat :: r))) (nth_error cs i).
  Proof using.
    induction cs as [|c cs IH]; intros n [|i]; cbn [descends nth_error option_map]; try reflexivity.
    - rewrite Nat.add_0_r. reflexivity.
    - rewrite IH, Nat.add_succ_r. reflexivity.
  Qed.
  Lemma descend_sub lr p : forall g t, sub (descend lr g t) p = option_map (descend lr (fun r => g (p ++ r))) (sub t p).
  Proof using.
    induction p as [|i p IH]; intros g t; [reflexivity|]. destruct t as [[x dx|n]| |k cs]; try reflexivity. rewrite descend_node. cbn [sub]. rewrite descends_nth. cbn [Nat.add]. destruct (nth_error cs i) as [c|]; cbn [option_map]; [|reflexivity].
    rewrite IH. reflexivity.
  Qed.
  Lemma sub_app {A} (t : tree A) p r : sub t (p ++ r) = match sub t p with Some u => sub u r | None => None end.
  Proof using. revert t. induction p as [|i p IH]; intros t; [reflexivity|]. cbn [app sub]. destruct t as [a| |k cs]; try reflexivity. destruct (nth_error cs i) as [c|]; [apply IH|reflexivity]. Qed.
  Lemma nth_combine {X Y} (l : list X) : forall (m : list Y) i x y, nth_error l i = Some x -> nth_error m i = Some y -> In (x, y) (List.combine l m).
  Proof using. induction l as [|a l IH]; intros [|b m] [|i] x y Hx Hy; cbn in *; try discriminate; [left; congruence|right; eauto]. Qed.
  Lemma Forall2_nth {X Y} (P : X -> Y -> Prop) l m : Forall2 P l m -> forall i x, nth_error l i = Some x -> exists y, nth_error m i = Some y /\ P x y.
  Proof using. induction 1 as [|a b l m Hab _ IH]; intros [|i] x Hx; cbn in *; try discriminate; [injection Hx as <-; eauto|eauto]. Qed.

  Lemma step ps qs t0 s out lr g : separate ps -> unrelated qs ps -> init ps (values_at qs) t0 = Ok s -> call ps (values_at qs) s = Ok out ->
    exists out', call ps (values_at qs) (descend lr g s) = Ok out' /\
      (forall i p q, nth_error ps i = Some p -> nth_error qs i = Some q -> sub out' p = sub out' q) /\
      (forall p, (forall p', In p' ps -> ~ prefix p' p) -> forall x dx, sub out p = Some (Leaf (Dual x dx)) -> sub out' p = Some (Leaf (Dual (sub_ x (lr * g p)) dx))).
  Proof using aeq_refl.
    intros HS HU H Hc. destruct (stored_values ps qs t0 s HS HU H) as (vs & HF & HL & HLq). pose proof (placeholders ps _ t0 s HS H) as HP.
    assert (HPs : forall p, In p ps -> exists n, sub s p = Some (Leaf (Other n))) by eauto.
    assert (HPd : forall p, In p ps -> exists n, sub (descend lr g s) p = Some (Leaf (Other n))) by (intros p Hp; exists placeholder; rewrite descend_sub, (HP p Hp); reflexivity).
    rewrite (call_puts ps _ s vs HS HPs (values_ok' qs s vs HF) HL) in Hc. injection Hc as <-.
    assert (HFd : exists ws, Forall2 (fun q v => sub (descend lr g s) q = Some v) qs ws /\ length ws = length ps).
    { rewrite <- HL. clear - HF. induction HF as [|q v qs vs Hq _ (ws & HF & HL)]; [exists []; split; [constructor|reflexivity]|]. eexists (_ :: ws). split; [constructor; [rewrite descend_sub, Hq; reflexivity|exact HF]|]. cbn. rewrite HL. reflexivity. }
    destruct HFd as (ws & HFw & HLw). exists (puts (descend lr g s) (List.combine ps ws)). split; [apply call_puts; [exact HS|exact HPd|apply values_ok'; exact HFw|exact HLw]|].
    assert (E1 : edited s (List.combine ps vs) (puts s (List.combine ps vs))).
    { apply puts_edited; rewrite map_fst_combine by exact HL; [exact HS|]. intros p Hp. rewrite (HP p Hp). discriminate. }
    assert (E2 : edited (descend lr g s) (List.combine ps ws) (puts (descend lr g s) (List.combine ps ws))).
    { apply puts_edited; rewrite map_fst_combine by exact HLw; [exact HS|]. intros p Hp. destruct (HPd p Hp). congruence. }
    split.
    - intros i p q Hp Hq. destruct (Forall2_nth _ _ _ HFw i q Hq) as (w & Hw & Hsw). rewrite (proj1 E2 p w (nth_combine ps ws i p w Hp Hw)).
      rewrite (edited_untouched _ _ _ q E2), Hsw; [reflexivity|]. intros p' r Hin. apply in_combine_l in Hin. apply HU; [eapply nth_error_In; exact Hq|exact Hin].
    - intros p Hn x dx Hx. pose proof (proj2 E1 p) as L1. pose proof (proj2 E2 p) as L2. unfold label_at in L1, L2. rewrite Hx in L1. cbn [option_map label_of] in L1.
      assert (Hs : sub s p = Some (Leaf (Dual x dx))).
      { assert (X : Some (LLeaf (Dual x dx)) = option_map label_of (sub s p)) by (apply L1; intros p' r Hin; apply Hn; eapply in_combine_l; exact Hin). destruct (sub s p) as [[a| |k cs]|]; cbn in X; congruence. }
      rewrite descend_sub, Hs in L2. cbn in L2. rewrite app_nil_r in L2.
      assert (X : option_map label_of (sub (puts (descend lr g s) (List.combine ps ws)) p) = Some (LLeaf (Dual (sub_ x (lr * g p)) dx))) by (apply L2; intros p' r Hin; apply Hn; eapply in_combine_l; exact Hin).
      destruct (sub (puts (descend lr g s) (List.combine ps ws)) p) as [[a| |k cs]|]; cbn in X; congruence.
  Qed.
  Lemma strip_sound q : forall p r, strip q p = Some r -> p = q ++ r.
  Proof using. induction q as [|i q IH]; intros p r H; cbn [strip] in H; [cbn [app]; congruence|]. destruct p as [|j p]; [discriminate|]. destruct (Nat.eqb_spec i j) as [->|_]; [|discriminate]. cbn. f_equal. apply IH. exact H. Qed.
  Lemma tied_none g p : forall ps qs, (forall q, In q qs -> ~ prefix q p) -> tied ps qs g p = zero.
  Proof using Rring.
    induction ps as [|p' ps IH]; intros [|q qs] H; cbn [tied]; try reflexivity. rewrite IH by (intros q' Hq'; apply H; right; exact Hq'). destruct (strip q p) as [r|] eqn:E; [|ring].
    exfalso. apply (H q); [left; reflexivity|]. exists r. apply strip_sound. exact E.
  Qed.
  Lemma tied_one g r : forall ps qs i p q, separate qs -> nth_error ps i = Some p -> nth_error qs i = Some q -> tied ps qs g (q ++ r) = g (p ++ r).
  Proof using Rring.
    assert (NP : forall qs q q', separate qs -> In q qs -> In q' qs -> q <> q' -> ~ prefix q' (q ++ r)).
    { intros qs q q' [HD HN] Hq Hq' Hne X. destruct (prefix_comparable _ _ _ X (prefix_app q r)) as [Y|Y]; apply prefix_cases in Y as [Y|Y]; try congruence; eapply HN; try exact Y; assumption. }
    induction ps as [|p' ps IH]; intros [|q' qs] [|i] p q HS Hp Hq; cbn [nth_error] in *; try discriminate.
    - injection Hp as <-. injection Hq as <-. cbn [tied]. rewrite strip_app, tied_none; [ring|]. intros q Hq. apply (NP (q' :: qs)); [exact HS|left; reflexivity|right; exact Hq|]. intros ->. destruct HS as [HD _]. inversion HD. contradiction.
    - cbn [tied]. assert (Hin : In q qs) by (eapply nth_error_In; exact Hq). rewrite (IH qs i p q); [| |exact Hp|exact Hq].
      + destruct (strip q' (q ++ r)) as [r'|] eqn:E; [|ring]. exfalso. apply (NP (q' :: qs) q q'); [exact HS|right; exact Hin|left; reflexivity| |exists r'; apply strip_sound; exact E].
        intros ->. destruct HS as [HD _]. inversion HD. contradiction.
      + destruct HS as [HD HN]. inversion HD; subst. split; [assumption|]. intros a b Ha Hb. apply HN; right; assumption.
  Qed.
End Ring.

(** A loss of a model with tied nodes has, as a function of the stored tree, the gradient of the loss plus, at each position, what the vector-Jacobian product of [get] sends there from the
    gradients of the nodes that were put in. [get] may compute something from the nodes it shares, say a transposition. *)
Theorem C119_gradient : forall R (zero one : R) add mul sub_ opp, ring_theory zero one add mul sub_ opp eq ->
  forall aeq : dleaf R -> dleaf R -> bool, (forall a, aeq a a = true) -> forall St (struct : dleaf R -> St) seqb placeholder ps get pull t0 s loss,
  separate ps -> ignores ps get -> shared_init aeq (Other placeholder) struct seqb ps get t0 = Ok s -> is_vjp R zero add mul get s pull ->
  exists out, shared_call aeq ps get s = Ok out /\
    forall g, is_gradient R zero add mul loss out g ->
      is_gradient R zero add mul (tied_loss aeq ps get loss) s (fun q => add (g q) (pull (at_nodes R zero ps g) q)).
Proof. intros. eapply gradient; eassumption. Qed.
Print Assumptions C119_gradient.

(** With the nodes at [qs] put in at [ps], the gradient at a stored node is the sum of the gradients at all the places that share it. *)
Theorem C119_shared : forall R (zero one : R) add mul sub_ opp, ring_theory zero one add mul sub_ opp eq ->
  forall aeq : dleaf R -> dleaf R -> bool, (forall a, aeq a a = true) -> forall St (struct : dleaf R -> St) seqb placeholder ps qs t0 s loss,
  separate ps -> unrelated qs ps -> shared_init aeq (Other placeholder) struct seqb ps (values_at qs) t0 = Ok s ->
  exists out, shared_call aeq ps (values_at qs) s = Ok out /\
    forall g, is_gradient R zero add mul loss out g ->
      is_gradient R zero add mul (tied_loss aeq ps (values_at qs) loss) s (fun p => add (g p) (tied R zero add ps qs g p)).
Proof. intros. eapply shared_gradient; eassumption. Qed.
Print Assumptions C119_shared.

(** There is only one gradient at each number, so [filter_grad] can return nothing else. *)
Theorem C119_unique : forall R (zero one : R) add mul sub_ opp, ring_theory zero one add mul sub_ opp eq ->
  forall f t g h p x dx, is_gradient R zero add mul f t g -> is_gradient R zero add mul f t h -> sub t p = Some (Leaf (Dual x dx)) -> g p = h p.
Proof. intros. eapply gradient_unique; eassumption. Qed.
Print Assumptions C119_unique.

(** The sum in [C119_shared]: one term if the source is used once, none away from the sources. *)
Theorem C119_sum : forall R (zero one : R) add mul sub_ opp, ring_theory zero one add mul sub_ opp eq ->
  (forall ps qs g i p q r, separate qs -> nth_error ps i = Some p -> nth_error qs i = Some q -> tied R zero add ps qs g (q ++ r) = g (p ++ r)) /\
  (forall ps qs g p, (forall q, In q qs -> ~ prefix q p) -> tied R zero add ps qs g p = zero) /\
  (forall p1 p2 q g r, tied R zero add [p1; p2] [q; q] g (q ++ r) = add (g (p1 ++ r)) (g (p2 ++ r))).
Proof.
  intros R zero one add mul sub_ opp HR. split; [|split].
  - intros. eapply tied_one; eassumption.
  - intros. eapply tied_none; eassumption.
  - intros. cbn [tied]. rewrite strip_app. rewrite (Radd_comm HR _ zero), (Radd_0_l HR). reflexivity.
Qed.
Print Assumptions C119_sum.

(** After a step of gradient descent on the stored tree, tied nodes are still equal, having moved by the sum of the gradients at all their places; other numbers move by their own gradient. *)
Theorem C119_step : forall R (zero one : R) add mul sub_ opp, ring_theory zero one add mul sub_ opp eq ->
  forall aeq : dleaf R -> dleaf R -> bool, (forall a, aeq a a = true) -> forall St (struct : dleaf R -> St) seqb placeholder ps qs t0 s out lr g,
  separate ps -> unrelated qs ps -> shared_init aeq (Other placeholder) struct seqb ps (values_at qs) t0 = Ok s -> shared_call aeq ps (values_at qs) s = Ok out ->
  let grad := fun p => add (g p) (tied R zero add ps qs g p) in
  exists out', shared_call aeq ps (values_at qs) (descend mul sub_ lr grad s) = Ok out' /\
    (forall i p q, nth_error ps i = Some p -> nth_error qs i = Some q -> sub out' p = sub out' q) /\
    (forall i p q r x dx, separate qs -> nth_error ps i = Some p -> nth_error qs i = Some q -> sub out (q ++ r) = Some (Leaf (Dual x dx)) ->
      sub out' (p ++ r) = Some (Leaf (Dual (sub_ x (mul lr (add (g (q ++ r)) (g (p ++ r))))) dx))) /\
    (forall p x dx, (forall p', In p' ps -> ~ prefix p' p) -> (forall q, In q qs -> ~ prefix q p) -> sub out p = Some (Leaf (Dual x dx)) ->
      sub out' p = Some (Leaf (Dual (sub_ x (mul lr (g p))) dx))).
Proof.
  intros R zero one add mul sub_ opp HR aeq Ha St struct seqb pl ps qs t0 s out lr g HS HU H Hc grad.
  destruct (step R mul sub_ aeq Ha St struct seqb pl ps qs t0 s out lr grad HS HU H Hc) as (out' & Hc' & HT & HN). exists out'. split; [exact Hc'|]. split; [exact HT|]. split.
  - intros i p q r x dx HQ Hp Hq Hx. rewrite sub_app. rewrite (HT i p q Hp Hq). rewrite <- sub_app. rewrite (HN (q ++ r)) with (x := x) (dx := dx); [|intros p' Hp' X|exact Hx].
    + unfold grad. rewrite (tied_one R zero one add mul sub_ opp HR g r ps qs i p q HQ Hp Hq). reflexivity.
    + destruct (HU q p' (nth_error_In _ _ Hq) Hp') as [N1 N2]. destruct (prefix_comparable _ _ _ X (prefix_app q r)); contradiction.
  - intros p x dx Hp Hq Hx. rewrite (HN p Hp x dx Hx). unfold grad. rewrite (tied_none R zero one add mul sub_ opp HR g p ps qs Hq). rewrite (Radd_comm HR), (Radd_0_l HR). reflexivity.
Qed.
Print Assumptions C119_step.

From Coq Require Import ZArith.
Local Open Scope Z_scope.
Definition zaeq (a b : dleaf Z) : bool := match a, b with Dual x dx, Dual y dy => (x =? y) && (dx =? dy) | Other n, Other m => Nat.eqb n m | _, _ => false end.
Definition zstruct (_ : dleaf Z) : unit := tt.
Definition zinit := shared_init zaeq (Other 99) zstruct (fun _ _ => true).
(** [Embedding] and [Linear] with a bias; the loss is [3 * embedding + 4 * linear + 5 * bias] with these derivatives. *)
Definition lm (a b c : Z) : tree (dleaf Z) := Node 5 [Node 6 [Leaf (Dual a 0)]; Node 7 [Leaf (Dual b 0); Leaf (Dual c 0)]].
Definition lm_grad (p : path) : Z := match p with [O; O] => 3 | [S O; O] => 4 | [S O; S O] => 5 | _ => 0 end.
Definition lm_loss (t : tree (dleaf Z)) : res Z :=
  match t with Node _ [Node _ [Leaf (Dual _ da)]; Node _ [Leaf (Dual _ db); Leaf (Dual _ dc)]] => Ok (3 * da + 4 * db + 5 * dc) | _ => Err TypeError end.
Lemma lm_gradient a b c : is_gradient Z 0 Z.add Z.mul lm_loss (lm a b c) lm_grad.
Proof.
  intros t H. destruct t as [x| |k [|t1 [|t2 [|]]]]; try discriminate. cbn [lmap map lm] in H. injection H as -> H1 H2.
  destruct t1 as [x| |k1 [|[[x1 d1|n1]| |] [|]]]; try discriminate. destruct t2 as [x| |k2 [|[[x2 d2|n2]| |] [|[[x3 d3|n3]| |] [|]]]]; try discriminate.
  cbn [lm_loss dot lm_grad]. f_equal. ring.
Qed.
Definition zcall := shared_call zaeq.
Definition stored : tree (dleaf Z) := Node 5 [Node 6 [Leaf (Dual 10 0)]; Node 7 [Leaf (Other 99); Leaf (Dual 20 0)]].
Definition zgrad (p : path) : Z := lm_grad p + tied Z 0 Z.add [[1%nat; O]] [[O; O]] lm_grad p.
Example C119_ex : zinit [[1%nat; O]] (values_at [[O; O]]) (lm 10 11 20) = Ok stored /\ zcall [[1%nat; O]] (values_at [[O; O]]) stored = Ok (lm 10 10 20) /\
  zgrad [O; O] = 7 /\ zgrad [1%nat; 1%nat] = 5 /\
  zcall [[1%nat; O]] (values_at [[O; O]]) (descend Z.mul Z.sub 1 zgrad stored) = Ok (lm 3 3 15).
Proof. vm_compute. auto. Qed.
Example C119_ex_gradient : is_gradient Z 0 Z.add Z.mul (tied_loss zaeq [[1%nat; O]] (values_at [[O; O]]) lm_loss) stored zgrad.
Proof.
  destruct (C119_shared Z 0 1 Z.add Z.mul Z.sub Z.opp Zth zaeq) with (St := unit) (struct := zstruct) (seqb := fun _ _ : unit => true) (placeholder := 99%nat) (ps := [[1%nat; O]]) (qs := [[O; O]])
    (t0 := lm 10 11 20) (s := stored) (loss := lm_loss) as (out & Hc & HG).
  - intros [x dx|n]; cbn; rewrite ?Z.eqb_refl, ?Nat.eqb_refl; reflexivity.
  - split; [repeat constructor; auto|]. intros p q [<-|[]] [<-|[]]. apply strict_prefix_irrefl.
  - intros p q [<-|[]] [<-|[]]. split; intros [r E]; discriminate.
  - reflexivity.
  - vm_compute in Hc. injection Hc as <-. apply HG. apply lm_gradient.
Qed.

(** Two fields holding the same node are not tied: a tree is flattened into two copies, each with its own gradient, and they differ after the first step (docs/faq.md lines 46-54). *)
Theorem C119_copies_refuted : exists t g lr out, is_gradient Z 0 Z.add Z.mul lm_loss t g /\ sub t [O; O] = sub t [1%nat; O] /\
  descend Z.mul Z.sub lr g t = out /\ sub out [O; O] <> sub out [1%nat; O].
Proof. exists (lm 10 10 20), lm_grad, 1, (lm 7 6 15). split; [apply lm_gradient|]. split; [reflexivity|]. split; [reflexivity|]. discriminate. Qed.
Print Assumptions C119_copies_refuted.

(** A [get] that returns a stored number doubled: its contribution is doubled too. *)
Definition double (t : tree (dleaf Z)) : res (tree (dleaf Z)) :=
  match sub t [O; O] with Some (Leaf (Dual x dx)) => Ok (Node ktuple [Leaf (Dual (2 * x) (2 * dx))]) | _ => Err AttributeError end.
Example C119_ex_get : is_vjp Z 0 Z.add Z.mul double stored (fun h p => match p with [O; O] => 2 * h [O] | _ => 0 end).
Proof.
  exists (Node ktuple [Leaf (Dual 20 0)]). intros t H. destruct t as [x| |k [|t1 [|t2 [|]]]]; try discriminate. cbn [lmap map stored] in H. injection H as -> H1 H2.
  destruct t1 as [x| |k1 [|[[x1 d1|n1]| |] [|]]]; try discriminate. destruct t2 as [x| |k2 [|[[x2 d2|n2]| |] [|[[x3 d3|n3]| |] [|]]]]; try discriminate.
  cbn in H1. injection H1 as -> ->. exists (Node ktuple [Leaf (Dual 20 (2 * d1))]). split; [reflexivity|]. split; [reflexivity|]. intros h. cbn [dot]. ring.
Qed.
