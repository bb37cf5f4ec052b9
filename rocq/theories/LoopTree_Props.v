(** C89: loops over PyTrees with buffers. *)
From Coq Require Import Lia.
From Verif Require Import TreeEq_Proofs TreeAt_Proofs TreeAt_Props Loop_Spec Loop_Proofs LoopTree_Model.
Local Open Scope nat_scope.
Local Open Scope list_scope.

(** ** Vocabulary *)
(** The same nodes, with leaves related by [e]. *)
Section Alike.
  Context {A : Type} (e : A -> A -> bool).
  Lemma alike_sub t u : tree_eqb e t u = true -> forall p x, sub t p = Some x -> exists y, sub u p = Some y /\ tree_eqb e x y = true.
  Proof.
    intros H p. revert t u H. induction p as [|i p IH]; intros t u H x Hx; [injection Hx as <-; exists u; auto|].
    destruct t as [a| |k cs]; try discriminate. destruct u as [b| |k' ds]; try discriminate. rewrite tree_eqb_node in H. apply andb_prop in H as [_ H].
    cbn in Hx |- *. revert i Hx. revert ds H. induction cs as [|c cs IHc]; intros [|d ds] H i Hx; try discriminate; [destruct i; discriminate|].
    cbn in H. apply andb_prop in H as [H1 H2]. destruct i as [|i]; cbn in Hx |- *; [apply (IH c d H1 x Hx)|apply IHc; assumption].
  Qed.
  Lemma list_eqb_len l r : list_eqb (tree_eqb e) l r = true -> length l = length r.
  Proof. revert r. induction l as [|x l IH]; intros [|y r] H; try discriminate; [reflexivity|]. cbn in H. apply andb_prop in H as [_ H]. cbn. f_equal. auto. Qed.
End Alike.
Lemma alike_weaken {A} (e e' : A -> A -> bool) : (forall a b, e a b = true -> e' a b = true) -> forall t u, tree_eqb e t u = true -> tree_eqb e' t u = true.
Proof.
  intros H. induction t as [a| |k cs IH] using tree_ind'; intros [b| |k' ds] E; try discriminate; [apply H; exact E|reflexivity|].
  rewrite tree_eqb_node in E |- *. apply andb_prop in E as [-> E]. cbn [andb]. revert ds E.
  induction IH as [|c cs Hc _ IHc]; intros [|d ds] E; try discriminate; [reflexivity|]. cbn in E |- *. apply andb_prop in E as [E1 E2]. rewrite Hc, IHc by assumption. reflexivity.
Qed.

Section Wrap.
  Context {A : Type} (arr_of : bool -> A) (fs : bool).
  (** The tree with the leaves at the marked positions wrapped. *)
  Definition buf (pred : bool) (tag : nat) (a : A) : tree A := Node (buf_label tag fs) [Leaf a; Leaf (arr_of pred)].
  Section W.
    Variables (pred : bool) (tag : nat).
    Fixpoint wrapped (P : path -> bool) (t : tree A) : tree A :=
      match t with
      | Leaf a => if P [] then buf pred tag a else Leaf a
      | TNone => TNone
      | Node k cs => Node k (mapi (fun i c => wrapped (fun q => P (i :: q)) c) 0 cs)
      end.
  End W.
  Lemma wrapped_sel pred tag : forall p t P a, sub t p = Some (Leaf a) -> P p = true -> sub (wrapped pred tag P t) p = Some (buf pred tag a).
  Proof.
    induction p as [|i p IH]; intros t P a Hs HP; cbn in Hs; [injection Hs as ->; cbn; rewrite HP; reflexivity|].
    destruct t as [b| |k cs]; try discriminate. destruct (nth_error cs i) as [c|] eqn:Ec; [|discriminate].
    cbn. rewrite nth_error_mapi, Ec. cbn. apply IH; assumption.
  Qed.
  Lemma wrapped_frame pred tag : forall q t P, (forall p, P p = true -> ~ prefix p q) -> label_at (wrapped pred tag P t) q = label_at t q.
  Proof.
    induction q as [|i q IH]; intros t P HP.
    - destruct t as [b| |k cs]; try reflexivity.
      + cbn. destruct (P []) eqn:E; [|reflexivity]. exfalso. apply (HP [] E). exists []. reflexivity.
      + unfold label_at. cbn. rewrite mapi_length. reflexivity.
    - destruct t as [b| |k cs]; try reflexivity.
      + cbn. destruct (P []) eqn:E; [|reflexivity]. exfalso. apply (HP [] E). exists (i :: q). reflexivity.
      + unfold label_at. cbn. rewrite nth_error_mapi. destruct (nth_error cs i) as [c|]; [|reflexivity]. cbn.
        apply (IH c (fun q => P (i :: q))). intros p Hp [r ->]. apply (HP (i :: p) Hp). exists r. reflexivity.
  Qed.
  Lemma wrapped_ext pred tag : forall t P Q, (forall p, P p = Q p) -> wrapped pred tag P t = wrapped pred tag Q t.
  Proof.
    induction t as [a| |k cs IH] using tree_ind'; intros P Q H; cbn; [rewrite H; reflexivity|reflexivity|]. f_equal.
    generalize 0. induction IH as [|c cs Hc _ IHc]; intros n; cbn; [reflexivity|]. f_equal; [apply Hc; intros; apply H|apply IHc].
  Qed.
End Wrap.

Definition memb (ps : list path) (q : path) : bool := existsb (list_eqb Nat.eqb q) ps.
Lemma list_eqb_nat p q : list_eqb Nat.eqb p q = true <-> p = q.
Proof.
  revert q. induction p as [|i p IH]; intros [|j q]; cbn; try (split; congruence). rewrite andb_true_iff, Nat.eqb_eq, IH. split; [intros [-> ->]; reflexivity|intros H; injection H; auto].
Qed.
Lemma memb_In ps q : memb ps q = true <-> In q ps.
Proof. unfold memb. rewrite existsb_exists. split; [intros (p & Hp & E); apply list_eqb_nat in E as ->; exact Hp|intros H; exists q; split; [exact H|apply list_eqb_nat; reflexivity]]. Qed.

Section Select.
  Context {A : Type}.
  Implicit Types t : tree A.
  Lemma buffer_leaves_leaf t : forall p, In p (buffer_leaves A t) -> exists a, sub t p = Some (Leaf a).
  Proof.
    induction t as [a| |k cs IH] using tree_ind'; intros p Hp.
    - destruct Hp as [<-|[]]. exists a. reflexivity.
    - destruct Hp.
    - cbn [buffer_leaves] in Hp. destruct (is_buf_label k).
      + destruct cs as [|c cs]; [destruct Hp|]. apply in_map_iff in Hp as (p' & <- & Hp'). inversion IH as [|? ? Hc _]; subst.
        destruct (Hc p' Hp') as [a Ha]. exists a. exact Ha.
      + apply in_concat in Hp as (l & Hl & Hp). apply In_mapi in Hl as (i & l0 & Hi & ->). rewrite nth_error_map in Hi.
        destruct (nth_error cs i) as [c|] eqn:Ec; [|discriminate]. cbn in Hi. injection Hi as <-. apply in_map_iff in Hp as (p' & <- & Hp').
        rewrite Forall_forall in IH. destruct (IH c (nth_error_In _ _ Ec) p' Hp') as [a Ha]. exists a. cbn. rewrite Ec. exact Ha.
  Qed.
  Lemma sub_app t : forall p q, sub t (p ++ q) = match sub t p with Some u => sub u q | None => None end.
  Proof.
    intros p. revert t. induction p as [|i p IH]; intros t q; [reflexivity|]. cbn. destruct t as [a| |k cs]; try reflexivity.
    destruct (nth_error cs i) as [c|]; [apply IH|reflexivity].
  Qed.
  Lemma selected_leaf bufs t p : In p (selected A bufs t) -> exists a, sub t p = Some (Leaf a).
  Proof.
    unfold selected. rewrite in_flat_map. intros (q & _ & H). destruct (sub t q) as [u|] eqn:E; [|destruct H].
    apply in_map_iff in H as (r & <- & Hr). destruct (buffer_leaves_leaf u r Hr) as [a Ha]. exists a. rewrite sub_app, E. exact Ha.
  Qed.
  Lemma buffer_leaves_alike e t u : tree_eqb e t u = true -> buffer_leaves A t = buffer_leaves A u.
  Proof.
    revert u. induction t as [a| |k cs IH] using tree_ind'; intros [b| |k' ds] E; try discriminate; try reflexivity.
    rewrite tree_eqb_node in E. apply andb_prop in E as [Ek E]. apply Nat.eqb_eq in Ek as <-. cbn [buffer_leaves].
    assert (M : map (buffer_leaves A) cs = map (buffer_leaves A) ds).
    { revert ds E. induction IH as [|c cs Hc _ IHc]; intros [|d ds] E; try discriminate; [reflexivity|]. cbn in E |- *. apply andb_prop in E as [E1 E2]. f_equal; auto. }
    destruct (is_buf_label k); [|rewrite M; reflexivity]. destruct cs, ds; try discriminate; [reflexivity|]. cbn in M. injection M as M _. rewrite M. reflexivity.
  Qed.
  Lemma selected_alike e bufs t u : tree_eqb e t u = true -> selected A bufs t = selected A bufs u.
  Proof.
    intros E. unfold selected. induction bufs as [|p ps IH]; [reflexivity|]. cbn. rewrite IH. f_equal.
    destruct (sub t p) as [x|] eqn:Ex.
    - destruct (alike_sub e t u E p x Ex) as (y & -> & Exy). rewrite (buffer_leaves_alike e x y Exy). reflexivity.
    - destruct (sub u p) as [y|] eqn:Ey; [|reflexivity].
      assert (S : tree_eqb (fun a b => e b a) u t = true).
      { clear -E. revert u E. induction t as [a| |k cs IH] using tree_ind'; intros [b| |k' ds] E; try discriminate; [exact E|reflexivity|].
        rewrite tree_eqb_node in E |- *. apply andb_prop in E as [Ek E]. rewrite Nat.eqb_sym, Ek. cbn [andb]. revert ds E.
        induction IH as [|c cs Hc _ IHc]; intros [|d ds] E; try discriminate; [reflexivity|]. cbn in E |- *. apply andb_prop in E as [E1 E2]. rewrite Hc, IHc by assumption. reflexivity. }
      destruct (alike_sub _ u t S p y Ey) as (x & Hx & _). congruence.
  Qed.
End Select.

Section Rewrite.
  Context {A St : Type} (struct : A -> St) (seqb : St -> St -> bool) (aeq : A -> A -> bool) (arr_of : bool -> A) (fs real : bool).
  Hypothesis aeq_refl : forall a, aeq a a = true.
  Hypothesis seqb_refl : forall s, seqb s s = true.
  Notation wrapb := (wrap_buffers A aeq arr_of fs).
  Notation e := (fun a b : A => seqb (struct a) (struct b)).

  (** ** Wrapping *)
  Lemma last_for_In {V} p (l : list (path * V)) v : last_for p l = Some v -> In (p, v) l.
  Proof.
    induction l as [|[q w] l IH]; [discriminate|]. cbn. destruct (last_for p l) as [u|]; [intros [= ->]; right; auto|].
    destruct (list_eq_dec Nat.eq_dec p q) as [->|]; [intros [= ->]; left; reflexivity|discriminate].
  Qed.
  Lemma last_for_some {V} p (l : list (path * V)) v : In (p, v) l -> exists w, last_for p l = Some w.
  Proof.
    induction l as [|[q w] l IH]; [intros []|]. cbn. intros [E|H]; [injection E as -> ->|destruct (IH H) as [u ->]; eauto].
    destruct (last_for p l); [eauto|]. destruct (list_eq_dec Nat.eq_dec p p); [eauto|congruence].
  Qed.
  Lemma visible_all (t : tree A) p x : sub t p = Some x -> visible (fun _ => false) t p.
  Proof.
    revert t. induction p as [|i p IH]; intros t H; [constructor|]. cbn in H. destruct t as [a| |k cs]; try discriminate.
    destruct (nth_error cs i) as [c|] eqn:Ec; [|discriminate]. econstructor; [reflexivity|exact Ec|apply IH; exact H].
  Qed.
  Lemma wrap_spec bufs val pred tag :
    wrapb bufs val pred tag = Ok (wrapped arr_of fs pred tag (memb (selected A bufs val)) val).
  Proof.
    unfold wrap_buffers. set (ps := selected A bufs val). set (root := Node ktuple [TNone; TNone; TNone; val]).
    set (g := wrap_buffer A arr_of fs pred tag).
    assert (HL : forall p, In p (map (cons 3) ps) -> exists a, sub root p = Some (Leaf a)).
    { intros p Hp. apply in_map_iff in Hp as (q & <- & Hq). apply selected_leaf in Hq as [a Ha]. exists a. exact Ha. }
    assert (exists ss rs, Forall2 (fun p s => sub root p = Some s) (map (cons 3) ps) ss /\ mapM g ss = Ok rs /\
              Forall2 (fun p r => exists a, sub root p = Some (Leaf a) /\ r = buf arr_of fs pred tag a) (map (cons 3) ps) rs) as (ss & rs & F1 & F2 & F3).
    { induction (map (cons 3) ps) as [|p l IH]; [exists [], []; repeat split; constructor|].
      destruct (HL p (or_introl eq_refl)) as [a Ha]. destruct IH as (ss & rs & F1 & F2 & F3); [intros q Hq; apply HL; right; exact Hq|].
      exists (Leaf a :: ss), (buf arr_of fs pred tag a :: rs). split; [constructor; assumption|]. split; [cbn; rewrite F2; reflexivity|]. constructor; eauto. }
    rewrite (C08_replace_fn A aeq (fun _ => false) aeq_refl root g (map (cons 3) ps) ss rs F1 F2 eq_refl) by (intros p Hp; destruct (HL p Hp); eapply visible_all; eassumption).
    assert (NP : forall p q, In p (map (cons 3) ps) -> In q (map (cons 3) ps) -> ~ strict_prefix p q).
    { intros p q Hp Hq (i & r & ->). destruct (HL _ Hp) as [a Ha]. destruct (HL _ Hq) as [b Hb]. rewrite sub_app, Ha in Hb. discriminate. }
    assert (Len : length rs = length (map (cons 3) ps)) by (symmetry; eapply Forall2_len; exact F3).
    destruct (proj2 (C07_accepts_iff A aeq (fun _ => false) aeq_refl root ktuple (map (cons 3) ps) rs eq_refl (fun _ _ => eq_refl))) as [out Hout].
    { split; [exact Len|]. intros p Hp. destruct (HL p Hp) as [a Ha]. split; [eapply visible_all; exact Ha|]. split.
      - intros _ q Hq. apply NP; assumption.
      - intros (_ & Hn & _). congruence. }
    rewrite Hout. cbn [bind].
    destruct (C06_repeated A aeq (fun _ => false) aeq_refl root ktuple (map (cons 3) ps) rs out Hout NP) as (_ & Hsel & Hfr).
    assert (HR : forall p r, In (p, r) (List.combine (map (cons 3) ps) rs) -> exists a, sub root p = Some (Leaf a) /\ r = buf arr_of fs pred tag a).
    { clear -F3. induction F3 as [|p r l l' H F IH]; [intros p r []|]. intros p0 r0 [E|Hin]; [injection E as <- <-; exact H|apply IH; exact Hin]. }
    assert (HC : forall p, In p (map (cons 3) ps) -> exists r, In (p, r) (List.combine (map (cons 3) ps) rs)).
    { clear -Len. revert rs Len. induction (map (cons 3) ps) as [|p l IH]; intros [|r rs] Len; try discriminate; [intros p []|].
      cbn in Len. intros q [<-|Hq]; [exists r; left; reflexivity|]. destruct (IH rs ltac:(lia) q Hq) as [r' Hr']. exists r'. right. exact Hr'. }
    assert (E1 : edited root (List.combine (map (cons 3) ps) rs) out).
    { split.
      - intros p r Hin. assert (Hp : In p (map (cons 3) ps)) by (eapply in_combine_l; exact Hin). rewrite (Hsel p Hp).
        destruct (last_for_some _ _ _ Hin) as [w Hw]. transitivity (Some w); [exact Hw|]. f_equal. apply last_for_In in Hw.
        destruct (HR _ _ Hin) as (a & Ha & ->). destruct (HR _ _ Hw) as (b & Hb & ->). congruence.
      - intros q Hq. apply Hfr. intros p Hp. destruct (HC p Hp) as [r Hr]. exact (Hq p r Hr). }
    set (P := memb ps).
    assert (E2 : edited root (List.combine (map (cons 3) ps) rs) (Node ktuple [TNone; TNone; TNone; wrapped arr_of fs pred tag P val])).
    { split.
      - intros p r Hin. destruct (HR _ _ Hin) as (a & Ha & ->). apply in_combine_l in Hin. apply in_map_iff in Hin as (q & <- & Hq).
        change (sub (wrapped arr_of fs pred tag P val) q = Some (buf arr_of fs pred tag a)). apply wrapped_sel; [exact Ha|apply memb_In; exact Hq].
      - intros q Hq. destruct q as [|i q]; [reflexivity|]. destruct i as [|[|[|[|i]]]]; [destruct q; reflexivity|destruct q; reflexivity|destruct q; reflexivity| |destruct i; reflexivity].
        change (label_at (wrapped arr_of fs pred tag P val) q = label_at val q). apply wrapped_frame. intros p Hp [r ->].
        apply memb_In in Hp. destruct (HC (3 :: p) (in_map _ _ _ Hp)) as [x Hx]. apply (Hq _ _ Hx). exists r. reflexivity. }
    rewrite (C06_determined A root _ _ _ E1 E2). reflexivity.
  Qed.

  (** ** One step *)
  (** No node of the tree is a buffer with this tag. *)
  Fixpoint fresh (tag : nat) (t : tree A) : bool :=
    match t with Node k cs => negb (is_buf_label k && Nat.eqb (tag_of k) tag) && forallb (fresh tag) cs | _ => true end.
  (** The tree with the buffers of this tag replaced by their arrays. *)
  Fixpoint strip (tag : nat) (t : tree A) : tree A :=
    match t with
    | Node k cs => if is_buf_label k && Nat.eqb (tag_of k) tag then match cs with Leaf a :: _ => Leaf a | _ => t end else Node k (map (strip tag) cs)
    | _ => t
    end.
  Lemma our_label tag : is_buf_label (buf_label tag fs) && Nat.eqb (tag_of (buf_label tag fs)) tag = true.
  Proof.
    clear -fs. unfold is_buf_label, buf_label, tag_of. rewrite Nat.odd_succ, Nat.even_mul. cbn [Nat.even orb andb]. apply Nat.eqb_eq.
    symmetry. apply (Nat.div_unique _ 4 tag (if fs then 3 else 1)); destruct fs; lia.
  Qed.
  Lemma fresh_alike e' tag (t u : tree A) : tree_eqb e' t u = true -> fresh tag t = fresh tag u.
  Proof.
    revert u. induction t as [a| |k cs IH] using tree_ind'; intros [b| |k' ds] E; try discriminate; try reflexivity.
    rewrite tree_eqb_node in E. apply andb_prop in E as [Ek E]. apply Nat.eqb_eq in Ek as <-. cbn [fresh]. f_equal.
    revert ds E. induction IH as [|c cs Hc _ IHc]; intros [|d ds] E; try discriminate; [reflexivity|]. cbn in E |- *. apply andb_prop in E as [E1 E2]. rewrite (Hc d E1), (IHc ds E2). reflexivity.
  Qed.
  Lemma strip_wrapped pred tag (t : tree A) : fresh tag t = true -> forall P, strip tag (wrapped arr_of fs pred tag P t) = t.
  Proof.
    induction t as [a| |k cs IH] using tree_ind'; intros Hf P; cbn [wrapped]; [|reflexivity|].
    - destruct (P []); [|reflexivity]. unfold buf. cbn [strip]. rewrite our_label. reflexivity.
    - cbn [fresh] in Hf. apply andb_prop in Hf as [Hk Hf]. apply negb_true_iff in Hk. cbn [strip]. rewrite Hk. f_equal.
      generalize 0. induction IH as [|c cs Hc _ IHc]; intros n; [reflexivity|]. cbn in Hf |- *. apply andb_prop in Hf as [H1 H2]. rewrite Hc, IHc by assumption. reflexivity.
  Qed.

  Notation usel := (unwrap_and_select A real).
  Lemma unwrap_spec pred tag (t : tree A) : fresh tag t = true -> forall P b2, tree_eqb e (wrapped arr_of fs pred tag P t) b2 = true ->
    exists t2, tmap2 (our_buffer A tag) (usel tag pred) (wrapped arr_of fs pred tag P t) b2 = Ok t2 /\
      tree_eqb e t t2 = true /\
      (forall q a, sub t q = Some (Leaf a) -> P q = true -> exists a2 pr, sub b2 q = Some (Node (buf_label tag fs) [Leaf a2; pr]) /\ sub t2 q = Some (Leaf a2)) /\
      (forall q a, sub t q = Some (Leaf a) -> P q = false -> exists a2, sub b2 q = Some (Leaf a2) /\ sub t2 q = Some (Leaf (select_if_vmap real pred a2 a))) /\
      (real = false \/ pred = true -> t2 = strip tag b2).
  Proof.
    induction t as [a| |k cs IH] using tree_ind'; intros Hf P b2 E; cbn [wrapped] in E |- *.
    - destruct (P []) eqn:HP.
      + unfold buf in E. destruct b2 as [b| |k' ds]; try discriminate. rewrite tree_eqb_node in E. apply andb_prop in E as [Ek E]. apply Nat.eqb_eq in Ek as <-.
        destruct ds as [|d1 [|d2 [|]]]; cbn [list_eqb] in E; rewrite ?andb_false_r in E; try discriminate. apply andb_prop in E as [E1 E2]. apply andb_prop in E2 as [E2 _].
        destruct d1 as [a2| |]; try discriminate. unfold buf. cbn [tmap2 our_buffer]. rewrite our_label. unfold unwrap_and_select. cbn [our_buffer]. rewrite our_label. cbn [array_of bind].
        exists (Leaf a2). split; [reflexivity|]. split; [exact E1|]. split; [|split].
        * intros [|i q] a' Hs HPq; [|discriminate]. exists a2, d2. split; reflexivity.
        * intros [|i q] a' Hs HPq; [congruence|discriminate].
        * intros _. cbn [strip]. rewrite our_label. reflexivity.
      + destruct b2 as [b| |k' ds]; try discriminate. cbn [tmap2 our_buffer unwrap_and_select]. exists (Leaf (select_if_vmap real pred b a)). split; [reflexivity|]. split; [|split; [|split]].
        * cbn in E |- *. unfold select_if_vmap. destruct real; [destruct pred|]; try exact E. apply seqb_refl.
        * intros [|i q] a' Hs HPq; [congruence|discriminate].
        * intros [|i q] a' Hs HPq; [|discriminate]. injection Hs as <-. exists b. split; reflexivity.
        * intros HH. cbn [strip]. f_equal. unfold select_if_vmap. destruct HH as [->| ->]; [reflexivity|destruct real; reflexivity].
    - destruct b2 as [b| |k' ds]; try discriminate. exists TNone. split; [reflexivity|]. split; [reflexivity|]. split; [|split]; try (intros [|i q] a' Hs; discriminate). intros _. reflexivity.
    - cbn [fresh] in Hf. apply andb_prop in Hf as [Hk Hf]. apply negb_true_iff in Hk.
      destruct b2 as [b| |k' ds]; try discriminate. rewrite tree_eqb_node in E. apply andb_prop in E as [Ek E]. apply Nat.eqb_eq in Ek as <-.
      cbn [tmap2 our_buffer]. rewrite Hk, Nat.eqb_refl.
      assert (G : forall n, list_eqb (tree_eqb e) (mapi (fun i c => wrapped arr_of fs pred tag (fun q => P (i :: q)) c) n cs) ds = true ->
        exists ts, zipM (tmap2 (our_buffer A tag) (usel tag pred)) (mapi (fun i c => wrapped arr_of fs pred tag (fun q => P (i :: q)) c) n cs) ds = Ok ts /\
          list_eqb (tree_eqb e) cs ts = true /\
          (forall i q a, match nth_error cs i with Some c => sub c q | None => None end = Some (Leaf a) -> P (n + i :: q) = true ->
             exists a2 pr, match nth_error ds i with Some c => sub c q | None => None end = Some (Node (buf_label tag fs) [Leaf a2; pr]) /\
               match nth_error ts i with Some c => sub c q | None => None end = Some (Leaf a2)) /\
          (forall i q a, match nth_error cs i with Some c => sub c q | None => None end = Some (Leaf a) -> P (n + i :: q) = false ->
             exists a2, match nth_error ds i with Some c => sub c q | None => None end = Some (Leaf a2) /\
               match nth_error ts i with Some c => sub c q | None => None end = Some (Leaf (select_if_vmap real pred a2 a))) /\
          (real = false \/ pred = true -> ts = map (strip tag) ds)).
      { clear E. revert ds Hf. induction IH as [|c cs Hc _ IHc]; intros [|d ds] Hf n E; try discriminate.
        - exists []. split; [reflexivity|]. split; [reflexivity|]. split; [|split]; try (intros [|i] q a' Hs; discriminate). intros _. reflexivity.
        - cbn in Hf, E. apply andb_prop in Hf as [F1 F2]. apply andb_prop in E as [E1 E2].
          destruct (Hc F1 _ d E1) as (t2 & T1 & T2 & T3 & T4 & T5). destruct (IHc ds F2 (S n) E2) as (ts & S1 & S2 & S3 & S4 & S5).
          exists (t2 :: ts). split; [cbn [mapi zipM]; rewrite T1; cbn [bind]; rewrite S1; reflexivity|]. split; [cbn; rewrite T2; exact S2|]. split; [|split].
          + intros [|i] q a Hs HP; cbn in Hs |- *; [rewrite Nat.add_0_r in HP; apply (T3 q a Hs HP)|]. apply (S3 i q a Hs). rewrite <- HP. f_equal. f_equal. lia.
          + intros [|i] q a Hs HP; cbn in Hs |- *; [rewrite Nat.add_0_r in HP; apply (T4 q a Hs HP)|]. apply (S4 i q a Hs). rewrite <- HP. f_equal. f_equal. lia.
          + intros HH. cbn [map]. rewrite <- (T5 HH), <- (S5 HH). reflexivity. }
      destruct (G 0 E) as (ts & S1 & S2 & S3 & S4 & S5). exists (Node k ts). split; [rewrite S1; reflexivity|]. split; [rewrite tree_eqb_node, Nat.eqb_refl; exact S2|]. split; [|split].
      + intros [|i q] a Hs HP; [discriminate|]. cbn in Hs |- *. exact (S3 i q a Hs HP).
      + intros [|i q] a Hs HP; [discriminate|]. cbn in Hs |- *. exact (S4 i q a Hs HP).
      + intros HH. cbn [strip]. rewrite Hk. f_equal. exact (S5 HH).
  Qed.

  (** C89. Which leaves become buffers: those below a selected node, but for the predicates of buffers of enclosing loops. *)
  Definition through_arrays (t : tree A) (r : path) : Prop :=
    forall r1 i r2 k cs, r = r1 ++ i :: r2 -> sub t r1 = Some (Node k cs) -> Nat.odd k = true -> i = 0.
  Theorem C89_selected : forall bufs val q,
    In q (selected A bufs val) <->
    exists p r t a, In p bufs /\ q = p ++ r /\ sub val p = Some t /\ sub t r = Some (Leaf a) /\ through_arrays t r.
  Proof.
    assert (G : forall t r, In r (buffer_leaves A t) <-> exists a, sub t r = Some (Leaf a) /\ through_arrays t r).
    { induction t as [a| |k cs IH] using tree_ind'; intros r.
      - cbn. split.
        + intros [<-|[]]. exists a. split; [reflexivity|]. intros [|j r1] i r2 k cs E Hs; discriminate.
        + intros (b & Hb & _). destruct r as [|i r]; [left; reflexivity|discriminate].
      - cbn. split; [intros []|]. intros (b & Hb & _). destruct r; discriminate.
      - assert (TA : forall i c r, nth_error cs i = Some c -> (Nat.odd k = true -> i = 0) -> through_arrays c r -> through_arrays (Node k cs) (i :: r)).
        { intros i c r0 Hi Hk HT r1 i0 r2 k0 cs0 E Hs Ho. destruct r1 as [|j r1]; [injection E as -> ->; injection Hs as <- <-; auto|].
          injection E as <- ->. cbn in Hs. rewrite Hi in Hs. exact (HT r1 i0 r2 k0 cs0 eq_refl Hs Ho). }
        assert (TB : forall i c r, nth_error cs i = Some c -> through_arrays (Node k cs) (i :: r) -> (Nat.odd k = true -> i = 0) /\ through_arrays c r).
        { intros i c r0 Hi HT. split; [intros Ho; exact (HT [] i r0 k cs eq_refl eq_refl Ho)|].
          intros r1 i0 r2 k0 cs0 -> Hs Ho. refine (HT (i :: r1) i0 r2 k0 cs0 eq_refl _ Ho). cbn. rewrite Hi. exact Hs. }
        rewrite Forall_forall in IH. cbn [buffer_leaves]. unfold is_buf_label. destruct (Nat.odd k) eqn:Ho.
        + destruct cs as [|c cs]; [split; [intros []|]|].
          * intros (b & Hb & _). destruct r as [|[|i] r]; discriminate.
          * rewrite in_map_iff. split.
            -- intros (r' & <- & Hr). apply (IH c (or_introl eq_refl)) in Hr as (a & Ha & HT). exists a. split; [exact Ha|]. apply (TA 0 c r' eq_refl); auto.
            -- intros (a & Ha & HT). destruct r as [|i r]; [discriminate|]. cbn in Ha. destruct (nth_error (c :: cs) i) as [c'|] eqn:Ei; [|discriminate].
               destruct (TB i c' r Ei HT) as [H0 HT']. specialize (H0 eq_refl). subst i. injection Ei as <-.
               exists r. split; [reflexivity|]. apply (IH c (or_introl eq_refl)). eauto.
        + rewrite in_concat. split.
          * intros (l & Hl & Hp). apply In_mapi in Hl as (i & l0 & Hi & ->). rewrite nth_error_map in Hi.
            destruct (nth_error cs i) as [c|] eqn:Ec; [|discriminate]. cbn in Hi. injection Hi as <-. apply in_map_iff in Hp as (r' & <- & Hr).
            apply (IH c (nth_error_In _ _ Ec)) in Hr as (a & Ha & HT). exists a. split; [cbn; rewrite Ec; exact Ha|]. apply (TA i c r' Ec); [intros; discriminate|exact HT].
          * intros (a & Ha & HT). destruct r as [|i r]; [discriminate|]. cbn in Ha. destruct (nth_error cs i) as [c|] eqn:Ei; [|discriminate].
            destruct (TB i c r Ei HT) as [_ HT']. exists (map (cons i) (buffer_leaves A c)). split.
            -- apply (nth_error_In _ i). rewrite nth_error_mapi, nth_error_map, Ei. reflexivity.
            -- apply in_map. apply (IH c (nth_error_In _ _ Ei)). eauto. }
    intros bufs val q. unfold selected. rewrite in_flat_map. split.
    - intros (p & Hp & H). destruct (sub val p) as [t|] eqn:E; [|destruct H]. apply in_map_iff in H as (r & <- & Hr). apply G in Hr as (a & Ha & HT). exists p, r, t, a. auto.
    - intros (p & r & t & a & Hp & -> & Ht & Ha & HT). exists p. split; [exact Hp|]. rewrite Ht. apply in_map. apply G. eauto.
  Qed.

  (** C89. Wrapping never fails, wraps exactly the selected leaves and changes nothing else. *)
  Theorem C89_wrap : forall bufs val pred tag, exists bv, wrapb bufs val pred tag = Ok bv /\
    (forall q a, sub val q = Some (Leaf a) -> In q (selected A bufs val) -> sub bv q = Some (Node (buf_label tag fs) [Leaf a; Leaf (arr_of pred)])) /\
    (forall q, (forall p, In p (selected A bufs val) -> ~ prefix p q) -> label_at bv q = label_at val q).
  Proof.
    intros bufs val pred tag. eexists. split; [apply wrap_spec|]. split.
    - intros q a Hq Hs. apply wrapped_sel; [exact Hq|apply memb_In; exact Hs].
    - intros q Hq. apply wrapped_frame. intros p Hp. apply Hq. apply memb_In. exact Hp.
  Qed.

  Variable cond_fun : tree A -> res bool.
  Variable body_fun : tree A -> res (tree A).
  Variable bufs : list path.
  Notation body1 := (new_body A St struct seqb aeq arr_of fs real cond_fun body_fun bufs).

  (** C89. One step, for any body. The result has the structure of the input; a buffer's new array is the one inside of the returned buffer, any other
      leaf is selected by the predicate. *)
  Theorem C89_body : forall tag pred prev val bv b2, fresh tag val = true ->
    wrapb bufs val pred tag = Ok bv -> body_fun bv = Ok b2 -> tree_eqb e bv b2 = true ->
    exists val2, body1 tag (pred, prev, val) = (c <- cond_fun b2 ;; Ok (pred && c, pred, val2)) /\
      tree_eqb e val val2 = true /\
      forall q a, sub val q = Some (Leaf a) ->
        (In q (selected A bufs val) -> exists a2, sub b2 (q ++ [0]) = Some (Leaf a2) /\ sub val2 q = Some (Leaf a2)) /\
        (~ In q (selected A bufs val) -> exists a2, sub b2 q = Some (Leaf a2) /\ sub val2 q = Some (Leaf (if real && negb pred then a else a2))).
  Proof.
    intros tag pred prev val bv b2 Hf Hw Hb E. pose proof Hw as Hw'. rewrite wrap_spec in Hw'. injection Hw' as <-.
    destruct (unwrap_spec pred tag val Hf _ b2 E) as (t2 & T1 & T2 & T3 & T4 & _).
    exists t2. split; [|split; [exact T2|]].
    - unfold new_body. rewrite Hw. cbn [bind]. rewrite Hb. cbn [bind]. unfold same_struct. rewrite E. cbn [negb]. rewrite T1. reflexivity.
    - intros q a Hq. split.
      + intros Hs. destruct (T3 q a Hq (proj2 (memb_In _ _) Hs)) as (a2 & pr & S1 & S2). exists a2. split; [|exact S2]. rewrite sub_app, S1. reflexivity.
      + intros Hs. destruct (T4 q a Hq) as (a2 & S1 & S2); [destruct (memb _ q) eqn:M; [apply memb_In in M; contradiction|reflexivity]|].
        exists a2. split; [exact S1|]. rewrite S2. unfold select_if_vmap. destruct real, pred; reflexivity.
  Qed.
  (** C89. A body whose output is not structured like its input is refused: for instance one that returns a plain array, or a buffer of another
      loop, in place of a buffer. *)
  Theorem C89_refuses : forall tag pred prev val bv b2, wrapb bufs val pred tag = Ok bv -> body_fun bv = Ok b2 ->
    (tree_eqb e bv b2 = false -> body1 tag (pred, prev, val) = Err ValueError) /\
    ((exists q, In q (selected A bufs val) /\ ~ exists a pr, sub b2 q = Some (Node (buf_label tag fs) [Leaf a; pr])) -> tree_eqb e bv b2 = false).
  Proof.
    intros tag pred prev val bv b2 Hw Hb. split.
    - intros E. unfold new_body. rewrite Hw. cbn [bind]. rewrite Hb. cbn [bind]. unfold same_struct. rewrite E. reflexivity.
    - intros (q & Hq & Hn). destruct (tree_eqb e bv b2) eqn:E; [|reflexivity]. exfalso. apply Hn. clear Hn.
      rewrite wrap_spec in Hw. injection Hw as <-. destruct (selected_leaf _ _ _ Hq) as [a Ha].
      pose proof (wrapped_sel arr_of fs pred tag q val (memb (selected A bufs val)) a Ha (proj2 (memb_In _ _) Hq)) as Hs.
      destruct (alike_sub e _ b2 E q _ Hs) as (y & Hy & Ey). rewrite Hy. unfold buf in Ey. destruct y as [b| |k ds]; try discriminate.
      rewrite tree_eqb_node in Ey. apply andb_prop in Ey as [Ek Ey]. apply Nat.eqb_eq in Ek as <-.
      destruct ds as [|d1 [|d2 [|]]]; cbn [list_eqb] in Ey; rewrite ?andb_false_r in Ey; try discriminate. apply andb_prop in Ey as [E1 _].
      destruct d1 as [b| |]; try discriminate. eauto.
  Qed.

  (** ** Whole loops *)
  Variables (val0 : tree A) (g : tree A -> tree A) (c : tree A -> bool).
  (** The body computes [g] on plain values, if its writes happen, and leaves buffers alone if they do not; the condition computes [c]. *)
  Definition computes : Prop :=
    (forall v pred tag bv, tree_eqb e val0 v = true -> wrapb bufs v pred tag = Ok bv -> cond_fun bv = Ok (c v)) /\
    (forall v pred tag bv, tree_eqb e val0 v = true -> fresh tag v = true -> wrapb bufs v pred tag = Ok bv ->
       exists b2, body_fun bv = Ok b2 /\ tree_eqb e bv b2 = true /\ cond_fun b2 = Ok (c (strip tag b2)) /\
         (real = false \/ pred = true -> strip tag b2 = g v) /\
         (real = true -> pred = false -> forall q, In q (selected A bufs v) -> sub b2 (q ++ [0]) = sub v q)).
  Hypothesis seqb_trans : forall s1 s2 s3, seqb s1 s2 = true -> seqb s2 s3 = true -> seqb s1 s3 = true.

  Lemma e_trans (t u v : tree A) : tree_eqb e t u = true -> tree_eqb e u v = true -> tree_eqb e t v = true.
  Proof.
    revert u v. induction t as [a| |k cs IH] using tree_ind'; intros [b| |k' ds] [b'| |k'' ds'] E F; try discriminate; [cbn in *; eauto|reflexivity|].
    rewrite tree_eqb_node in E, F |- *. apply andb_prop in E as [E0 E]. apply andb_prop in F as [F0 F]. apply Nat.eqb_eq in E0 as <-. rewrite F0. cbn [andb].
    revert ds ds' E F. induction IH as [|x cs Hx _ IHc]; intros [|d ds] [|d' ds'] E F; try discriminate; [reflexivity|]. cbn in *.
    apply andb_prop in E as [E1 E2]. apply andb_prop in F as [F1 F2]. rewrite (Hx d d' E1 F1), (IHc ds ds' E2 F2). reflexivity.
  Qed.
  Lemma leaves_eq (t u : tree A) : tree_eqb e t u = true -> (forall q a, sub t q = Some (Leaf a) -> sub u q = Some (Leaf a)) -> u = t.
  Proof.
    revert u. induction t as [a| |k cs IH] using tree_ind'; intros [b| |k' ds] E H; try discriminate; [|reflexivity|].
    - specialize (H [] a eq_refl). cbn in H. congruence.
    - rewrite tree_eqb_node in E. apply andb_prop in E as [Ek E]. apply Nat.eqb_eq in Ek as <-. f_equal.
      assert (H' : forall i q a, match nth_error cs i with Some x => sub x q | None => None end = Some (Leaf a) ->
                                 match nth_error ds i with Some x => sub x q | None => None end = Some (Leaf a)) by (intros i q a; apply (H (i :: q) a)).
      clear H. revert ds E H'. induction IH as [|x cs Hx _ IHc]; intros [|d ds] E H'; try discriminate; [reflexivity|]. cbn in E. apply andb_prop in E as [E1 E2]. f_equal.
      + apply Hx; [exact E1|]. intros q a. apply (H' 0 q a).
      + apply IHc; [exact E2|]. intros i q a. apply (H' (S i) q a).
  Qed.
  Definition g' : tree A -> list A -> tree A * list (write A) := fun v _ => (g v, []).
  Definition c' : tree A -> list A -> bool := fun v _ => c v.

  Lemma body_lane : computes -> forall tag pred prev v, fresh tag val0 = true -> tree_eqb e val0 v = true ->
    body1 tag (pred, prev, v) = Ok (fst (lane_body g' c' real (pred, prev, v) [])) /\
    tree_eqb e val0 (snd (fst (lane_body g' c' real (pred, prev, v) []))) = true.
  Proof.
    intros [Hc Hg] tag pred prev v Hf Hv. assert (Hfv : fresh tag v = true) by (rewrite <- (fresh_alike e tag val0 v Hv); exact Hf).
    pose proof (wrap_spec bufs v pred tag) as Hw. destruct (Hg v pred tag _ Hv Hfv Hw) as (b2 & Hb & E & Hcb & G1 & G2).
    destruct (unwrap_spec pred tag v Hfv _ b2 E) as (t2 & T1 & T2 & T3 & T4 & T5).
    assert (Hbody : body1 tag (pred, prev, v) = Ok (pred && c (strip tag b2), pred, t2)).
    { unfold new_body. rewrite Hw. cbn [bind]. rewrite Hb. cbn [bind]. unfold same_struct. rewrite E. cbn [negb]. rewrite T1. cbn [bind]. rewrite Hcb. reflexivity. }
    cbn [lane_body g' fst snd fold_left c']. unfold c'.
    assert (V : t2 = select_if_vmap real pred (g v) v /\ pred && c (strip tag b2) = pred && c (g v)).
    { unfold select_if_vmap. destruct real eqn:Er; [destruct pred eqn:Ep|].
      - rewrite (T5 (or_intror eq_refl)), (G1 (or_intror eq_refl)). auto.
      - split; [|reflexivity]. apply leaves_eq; [exact T2|]. intros q a Hq. destruct (memb (selected A bufs v) q) eqn:M.
        + destruct (T3 q a Hq M) as (a2 & pr & S1 & S2). rewrite S2. apply memb_In in M. pose proof (G2 eq_refl eq_refl q M) as Hs.
          rewrite sub_app, S1, Hq in Hs. cbn in Hs. congruence.
        + destruct (T4 q a Hq M) as (a2 & S1 & S2). exact S2.
      - rewrite (T5 (or_introl eq_refl)), (G1 (or_introl eq_refl)). auto. }
    destruct V as [V1 V2]. rewrite Hbody, V2, <- V1. split; [reflexivity|]. exact (e_trans _ _ _ Hv T2).
  Qed.

  (** C89. The rewritten loop over any number of lanes is the loop of Loop_Model without buffers: the writes have become part of the values. *)
  Theorem C89_refines : computes -> forall max_steps fuel tags vals,
    (forall n, fresh (tags n) val0 = true) -> Forall (fun v => tree_eqb e val0 v = true) vals ->
    tree_loop A St struct seqb aeq arr_of fs real cond_fun body_fun bufs fuel tags max_steps vals =
    Ok (option_map (map fst) (lax_loop g' c' max_steps real fuel (map (fun v => (v, [])) vals))).
  Proof.
    intros HC max_steps fuel tags vals Hf Hv. unfold tree_loop, lax_loop, rw_init, rw_init_bufs.
    assert (Hi : mapM (new_init A aeq arr_of fs cond_fun bufs) vals = Ok (map (fun v => (c v, true, v)) vals)).
    { clear Hf. induction Hv as [|v vs Hv _ IH]; [reflexivity|]. cbn [mapM map]. unfold new_init at 1. rewrite wrap_spec. cbn [bind].
      rewrite (proj1 HC v true 0 _ Hv (wrap_spec _ _ _ _)). cbn [bind]. rewrite IH. reflexivity. }
    rewrite Hi. cbn [bind]. rewrite !map_map. cbn [fst snd].
    assert (HL : Forall (fun l : bool * bool * tree A => tree_eqb e val0 (snd l) = true) (map (fun v => (c' v [], true, v)) vals)) by (apply Forall_map; exact Hv).
    change (map (fun v => (c v, true, v)) vals) with (map (fun v => (c' v [], true, v)) vals).
    replace (map (fun _ : tree A => @nil A) vals) with (map (fun _ : bool * bool * tree A => @nil A) (map (fun v => (c' v [], true, v)) vals)) by (rewrite map_map; reflexivity).
    revert HL. generalize (map (fun v => (c' v [], true, v)) vals) as ls. generalize 0%Z as step. revert tags Hf.
    assert (CB : forall (f : (bool * bool * tree A) * list A -> bool * bool * tree A) ls, map f (List.combine ls (map (fun _ => []) ls)) = map (fun l => f (l, [])) ls).
    { intros f ls. induction ls as [|l ls IH]; [reflexivity|]. cbn. f_equal. exact IH. }
    clear Hi Hv vals. induction fuel as [|fuel IH]; intros tags Hf step ls HL; [reflexivity|]. cbn [loop while].
    assert (Hcond : new_cond A aeq arr_of fs cond_fun bufs max_steps (step, ls) = Ok (rw_test c' max_steps ((step, ls), map (fun _ => []) ls))).
    { unfold new_cond, rw_test, rw_cond. cbn [fst snd].
      assert (M : mapM (lane_cond A aeq arr_of fs cond_fun bufs) ls = Ok (map (fun l => c (snd l)) ls)).
      { clear -HL HC aeq_refl. induction HL as [|[[p pp] v] ls Hv _ IHl]; [reflexivity|]. cbn [mapM map snd lane_cond]. rewrite wrap_spec. cbn [bind].
        rewrite (proj1 HC v pp 0 _ Hv (wrap_spec _ _ _ _)). cbn [bind]. rewrite IHl. reflexivity. }
      rewrite M. cbn [bind].
      assert (X : existsb (fun c => c) (map (fun l : bool * bool * tree A => c (snd l)) ls) =
                  existsb (fun lb : bool * bool * tree A * list A => let '(_, _, v) := fst lb in c' v (snd lb)) (List.combine ls (map (fun _ => []) ls))).
      { clear. induction ls as [|[[p pp] v] ls IHl]; [reflexivity|]. cbn. rewrite IHl. reflexivity. }
      rewrite X. reflexivity. }
    match goal with |- context [if ?t then while _ _ _ _ else _] => destruct t eqn:ER end.
    - assert (HT : new_cond A aeq arr_of fs cond_fun bufs max_steps (step, ls) = Ok true) by (etransitivity; [exact Hcond|]; f_equal; exact ER).
      rewrite HT. cbn [bind fst snd].
      assert (M : mapM (body1 (tags 0)) ls = Ok (map (fun l => fst (lane_body g' c' real l [])) ls) /\
                  Forall (fun l : bool * bool * tree A => tree_eqb e val0 (snd l) = true) (map (fun l => fst (lane_body g' c' real l [])) ls)).
      { clear -HL HC Hf aeq_refl seqb_refl seqb_trans. induction HL as [|[[p pp] v] ls Hv _ [IH1 IH2]]; [split; [reflexivity|constructor]|].
        destruct (body_lane HC (tags 0) p pp v (Hf 0) Hv) as [B1 B2]. split.
        - cbn [mapM map]. rewrite B1. cbn [bind]. rewrite IH1. reflexivity.
        - constructor; [exact B2|exact IH2]. }
      destruct M as [M1 M2]. rewrite M1. cbn [bind].
      assert (B0 : map (fun lb : bool * bool * tree A * list A => snd (lane_body g' c' real (fst lb) (snd lb))) (List.combine ls (map (fun _ => []) ls)) =
                   map (fun _ : bool * bool * tree A => @nil A) (map (fun l => fst (lane_body g' c' real l [])) ls)).
      { clear. induction ls as [|[[p pp] v] ls IHl]; [reflexivity|]. cbn. f_equal. exact IHl. }
      assert (RS : rw_step g' c' real ((step, ls), map (fun _ => []) ls) =
                   ((step + 1, map (fun l => fst (lane_body g' c' real l [])) ls)%Z, map (fun _ => []) (map (fun l => fst (lane_body g' c' real l [])) ls))).
      { unfold rw_step, rw_fN, rw_fB. cbn [fst snd]. f_equal; [f_equal; exact (CB (fun lb => fst (lane_body g' c' real (fst lb) (snd lb))) ls)|exact B0]. }
      match goal with |- context [while fuel _ _ ?x] => replace x with ((step + 1, map (fun l => fst (lane_body g' c' real l [])) ls)%Z, map (fun _ : bool * bool * tree A => @nil A) (map (fun l => fst (lane_body g' c' real l [])) ls)) by (symmetry; exact RS) end.
      apply (IH (fun n => tags (n + 1))); [intros n; apply Hf|exact M2].
    - assert (HT : new_cond A aeq arr_of fs cond_fun bufs max_steps (step, ls) = Ok false) by (etransitivity; [exact Hcond|]; f_equal; exact ER).
      rewrite HT. cbn [bind option_map]. do 2 f_equal. unfold rw_result. cbn [fst snd]. clear. induction ls as [|[[p pp] v] ls IHl]; [reflexivity|]. cbn. f_equal. exact IHl.
  Qed.

  (** C89. Hence each lane ends with [g] iterated until [c] fails (or [max_steps]), however long the other lanes run. *)
  Definition stops (m : option Z) (v : tree A) (s : nat) : Prop :=
    (forall k, k < s -> c (Nat.iter k g v) = true) /\ (match m with Some m => (Z.of_nat s <= m)%Z | None => True end) /\
    (c (Nat.iter s g v) = false \/ m = Some (Z.of_nat s)).
  Theorem C89_loop : computes -> forall max_steps fuel tags vals ss,
    (forall n, fresh (tags n) val0 = true) -> Forall (fun v => tree_eqb e val0 v = true) vals ->
    Forall2 (stops max_steps) vals ss -> real = true \/ (forall s, In s ss -> s = list_max ss) -> list_max ss < fuel ->
    tree_loop A St struct seqb aeq arr_of fs real cond_fun body_fun bufs fuel tags max_steps vals =
    Ok (Some (map (fun vs => Nat.iter (snd vs) g (fst vs)) (List.combine vals ss))).
  Proof.
    intros HC max_steps fuel tags vals ss Hf Hv Hs Hr Hl. rewrite (C89_refines HC max_steps fuel tags vals Hf Hv).
    assert (PR : forall k v, plain_run g' k (v, []) = (Nat.iter k g v, [])).
    { induction k as [|k IH]; intros v; [reflexivity|]. cbn [plain_run]. rewrite IH. reflexivity. }
    assert (F : Forall2 (lane_stops g' c' max_steps) (map (fun v => (v, [])) vals) ss).
    { clear -Hs PR. induction Hs as [|v s l l' (H1 & H2 & H3) _ IH]; [constructor|]. cbn. constructor; [|exact IH]. split; [|split; [exact H2|]].
      - intros k Hk. rewrite PR. apply H1. exact Hk.
      - rewrite PR. exact H3. }
    rewrite (lax_loop_correct _ _ _ _ ss F real Hr fuel Hl). cbn [option_map]. do 2 f_equal.
    clear -PR. revert ss. induction vals as [|v vs IH]; intros [|s ss]; try reflexivity. cbn. rewrite PR. f_equal. apply IH.
  Qed.
End Rewrite.

Print Assumptions C89_selected.
Print Assumptions C89_wrap.
Print Assumptions C89_body.
Print Assumptions C89_refuses.
Print Assumptions C89_refines.
Print Assumptions C89_loop.

(** A loop over a counter and a buffer of squares. Arrays are lists of numbers, predicates are 0 or 1, structures are lengths. *)
Definition exb (b : bool) : list nat := [if b then 1 else 0].
Fixpoint exset (l : list nat) (i x : nat) : list nat := match l, i with [], _ => [] | _ :: l, O => x :: l | y :: l, S i => y :: exset l i x end.
Definition ex_body (t : tree (list nat)) : res (tree (list nat)) :=
  match t with
  | Node 0 [Leaf [i]; Node k [Leaf xs; Leaf [p]]] => Ok (Node 0 [Leaf [S i]; Node k [Leaf (if Nat.eqb p 1 then exset xs i (i * i) else xs); Leaf [p]]])
  | _ => Err TypeError
  end.
Definition ex_cond (t : tree (list nat)) : res bool :=
  match t with Node 0 (Leaf [i] :: _) => Ok (Nat.ltb i 3) | _ => Err TypeError end.
Definition ex_g (t : tree (list nat)) : tree (list nat) :=
  match t with Node 0 [Leaf [i]; Leaf xs] => Node 0 [Leaf [S i]; Leaf (exset xs i (i * i))] | t => t end.
Definition ex_c (t : tree (list nat)) : bool := match t with Node 0 (Leaf [i] :: _) => Nat.ltb i 3 | _ => false end.
Definition ex_val (i : nat) : tree (list nat) := Node 0 [Leaf [i]; Leaf [9; 9; 9; 9]].
Example C89_ex_computes : computes (@length nat) Nat.eqb (list_eqb Nat.eqb) exb false true ex_cond ex_body [[1]] (ex_val 0) ex_g ex_c.
Proof.
  assert (R : forall l, list_eqb Nat.eqb l l = true) by (intros l; apply list_eqb_nat; reflexivity).
  assert (V : forall v, tree_eqb (fun a b : list nat => Nat.eqb (length a) (length b)) (ex_val 0) v = true -> exists i xs, v = Node 0 [Leaf [i]; Leaf xs] /\ length xs = 4).
  { intros v E. destruct v as [b| |k ds]; try discriminate. unfold ex_val in E. rewrite tree_eqb_node in E. apply andb_prop in E as [Ek E]. apply Nat.eqb_eq in Ek as <-.
    destruct ds as [|d1 [|d2 [|]]]; cbn [list_eqb] in E; rewrite ?andb_false_r in E; try discriminate. apply andb_prop in E as [E1 E2]. apply andb_prop in E2 as [E2 _].
    destruct d1 as [[|i [|]]| |]; try discriminate. destruct d2 as [xs| |]; try discriminate. exists i, xs. split; [reflexivity|]. apply Nat.eqb_eq in E2. symmetry. exact E2. }
  assert (L : forall xs i x, length (exset xs i x) = length xs) by (induction xs as [|y xs IH]; intros [|i] x; cbn; try reflexivity; rewrite IH; reflexivity).
  split.
  - intros v pred tag bv Hv Hw. destruct (V v Hv) as (i & xs & -> & Hx). rewrite wrap_spec in Hw by exact R. injection Hw as <-. reflexivity.
  - intros v pred tag bv Hv Hf Hw. destruct (V v Hv) as (i & xs & -> & Hx). rewrite wrap_spec in Hw by exact R. injection Hw as <-.
    cbn [wrapped mapi selected flat_map sub nth_error map buffer_leaves app memb existsb list_eqb Nat.eqb andb orb]. unfold buf.
    assert (St : forall k l pr, is_buf_label k && Nat.eqb (tag_of k) tag = true -> strip tag (Node 0 [Leaf [S i]; Node k [Leaf l; pr]]) = Node 0 [Leaf [S i]; Leaf l]).
    { intros k l pr Hk. cbn [strip map]. rewrite Hk. cbn [is_buf_label andb]. reflexivity. }
    eexists. split; [cbn [ex_body exb]; reflexivity|]. split; [|split; [|split]].
    + rewrite tree_eqb_node. cbn [list_eqb]. rewrite tree_eqb_node, Nat.eqb_refl. cbn [tree_eqb list_eqb length exb andb Nat.eqb]. destruct pred; cbn [Nat.eqb]; rewrite ?L, ?Nat.eqb_refl; reflexivity.
    + rewrite St by apply (our_label false tag). reflexivity.
    + intros [H|H]; [discriminate|]. subst pred. rewrite St by apply (our_label false tag). reflexivity.
    + intros _ Hp q Hq. subst pred. cbn in Hq. destruct Hq as [<-|[]]. reflexivity.
Qed.
Example C89_ex : tree_loop (list nat) nat (@length nat) Nat.eqb (list_eqb Nat.eqb) exb false true ex_cond ex_body [[1]] 10 (fun n => n + 7) None [ex_val 1; ex_val 5; ex_val 2]
  = Ok (Some [Node 0 [Leaf [3]; Leaf [9; 1; 4; 9]]; Node 0 [Leaf [5]; Leaf [9; 9; 9; 9]]; Node 0 [Leaf [3]; Leaf [9; 9; 4; 9]]]).
Proof. vm_compute. reflexivity. Qed.
(** A body that returns the array without its buffer. *)
Example C89_ex_refused : new_body (list nat) nat (@length nat) Nat.eqb (list_eqb Nat.eqb) exb false true ex_cond
    (fun t => match t with Node 0 [i; Node _ [xs; _]] => Ok (Node 0 [i; xs]) | _ => Err TypeError end) [[1]] 7 (true, true, ex_val 1) = Err ValueError.
Proof. vm_compute. reflexivity. Qed.
(** Nested loops: the leaf inside of an outer buffer gets wrapped, the predicate of that one does not. *)
Example C89_ex_nested : wrap_buffers (list nat) (list_eqb Nat.eqb) exb false [[0]] (Node 0 [Node (buf_label 5 false) [Leaf [9; 9]; Leaf [1]]]) false 6
  = Ok (Node 0 [Node (buf_label 5 false) [Node (buf_label 6 false) [Leaf [9; 9]; Leaf [0]]; Leaf [1]]]).
Proof. vm_compute. reflexivity. Qed.
