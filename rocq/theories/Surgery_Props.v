(** C106: model surgery on all linear layers. *)
From Verif Require Import Tree_Facts TreeAt_Spec TreeAt_Proofs TreeAt_Proofs2 TreeAt_Proofs3 TreeAt_Proofs4 TreeAt_Proofs5 TreeAt_Props Leafwise.
From Verif Require Export Surgery_Model.

(** ** Vocabulary *)
(** The outermost linear layers of a model. *)
Definition layer_at {A} (is_lin : nat -> bool) (t : tree A) (p : path) : Prop :=
  (exists k cs, is_lin k = true /\ sub t p = Some (Node k cs)) /\
  forall q k cs, strict_prefix q p -> sub t q = Some (Node k cs) -> is_lin k = false.
(** Position [p] is to the left of position [q]. *)
Definition left_of (p q : path) : Prop :=
  exists r i j p' q', p = r ++ i :: p' /\ q = r ++ j :: q' /\ i < j.
(** All of them, from left to right. *)
Definition all_layers {A} (is_lin : nat -> bool) (t : tree A) (ps : list path) : Prop :=
  (forall p, In p ps <-> layer_at is_lin t p) /\ ForallOrdPairs left_of ps.

(** ** Positions *)
Section Positions.
  Context {A : Type}.
  Variable is_lin : nat -> bool.
  Hypothesis no_tuple : is_lin ktuple = false.
  Variable w : nat.
  Fixpoint layers (t : tree A) : list path :=
    match t with
    | Node k cs => if is_lin k then [[]] else concat (mapi (fun i c => map (cons i) (layers c)) 0 cs)
    | _ => []
    end.
  Fixpoint olayers (x : pyobj A) : list path :=
    match x with
    | PNode _ k cs => if is_lin k then [[]] else concat (mapi (fun i c => map (cons i) (olayers c)) 0 cs)
    | _ => []
    end.
  (** Only leaves are wrapped. *)
  Fixpoint plain (x : pyobj A) : Prop :=
    match x with
    | PNode _ _ cs => fold_right and True (map plain cs)
    | PWrap _ (PLeaf _) | PWrap _ (PDist _) => True
    | PWrap _ _ => False
    | _ => True
    end.
  Lemma olayers_erase x : plain x -> olayers x = layers (erase x).
  Proof.
    induction x as [a| |i k cs IH|i x _|i] using pyobj_ind'; intros HP; try reflexivity.
    - cbn [olayers erase layers]. destruct (is_lin k); [reflexivity|]. f_equal. cbn [plain] in HP. generalize 0 as n.
      induction IH as [|c cs Hc _ IHc]; intros n; [reflexivity|]. cbn [map mapi fold_right] in *. destruct HP as [H1 H2].
      rewrite Hc by exact H1. f_equal. apply IHc. exact H2.
    - destruct x; try contradiction; cbn; [reflexivity|]. rewrite no_tuple. reflexivity.
    - cbn. rewrite no_tuple. reflexivity.
  Qed.
  Lemma plain_embed t : plain (embed t).
  Proof.
    induction t as [a| |k cs IH] using tree_ind'; cbn [embed plain]; auto. induction IH as [|c cs Hc _ IHc]; cbn [map fold_right]; auto.
  Qed.
  Lemma plain_copy1 t : forall rp, plain (copy1 rp t).
  Proof.
    induction t as [a| |k cs IH] using tree_ind'; intros rp; cbn [copy1]; try exact I. destruct (_ && _); [exact I|]. cbn [plain]. generalize 0 as n.
    induction IH as [|c cs Hc _ IHc]; intros n; cbn [mapi map fold_right]; auto.
  Qed.
  Lemma plain_copy2 t : forall rp rq, plain (copy2 (fun _ => false) rp (copy1 rq t)).
  Proof.
    induction t as [a| |k cs IH] using tree_ind'; intros rp rq; cbn [copy1 copy2]; try exact I. destruct (_ && _); [exact I|]. cbn [copy2 plain]. generalize 0 as n. generalize 0 as n'.
    induction IH as [|c cs Hc _ IHc]; intros n' n; cbn [mapi map fold_right]; auto.
  Qed.
  Lemma mapi_app_pick {X} (f : nat -> pyobj A -> list X) cs : forall n, mapi f n cs = map (fun x => f (fst x) (snd x)) (List.combine (seq n (length cs)) cs).
  Proof. induction cs as [|c cs IH]; intros n; cbn; [reflexivity|]. f_equal. apply IH. Qed.
  Lemma found_layers x :
    Forall2 (fun p y => pick x p = Ok y) (olayers x) (List.filter (is_linear is_lin) (pleaves (is_linear is_lin) x)).
  Proof.
    induction x as [a| |i k cs IH|i x _|i] using pyobj_ind'; try (cbn; constructor).
    cbn [olayers pleaves is_linear]. destruct (is_lin k) eqn:E; [cbn; rewrite E; repeat constructor|].
    assert (G : forall n pre, length pre = n ->
      Forall2 (fun p y => pick (PNode i k (pre ++ cs)) p = Ok y) (concat (mapi (fun j c => map (cons j) (olayers c)) n cs))
        (List.filter (is_linear is_lin) (concat (map (pleaves (is_linear is_lin)) cs)))).
    { induction IH as [|c cs Hc _ IHc]; intros n pre Hn; [constructor|]. cbn [mapi map concat].
      rewrite filter_app. apply Forall2_app.
      - clear -Hc Hn. induction Hc as [|p y ps ys H _ IHp]; cbn [map]; constructor; auto. cbn [pick].
        rewrite nth_error_app2 by lia. replace (n - length pre) with 0 by lia. exact H.
      - specialize (IHc (S n) (pre ++ [c])). rewrite app_length in IHc. cbn [length] in IHc. rewrite <- app_assoc in IHc. apply IHc. lia. }
    exact (G 0 [] eq_refl).
  Qed.
  Definition at_weight (p : path) : path := p ++ [w].
  Lemma pick_app (x : pyobj A) p q : pick x (p ++ q) = (y <- pick x p ;; pick y q).
  Proof. revert x. induction p as [|i p IH]; intros x; cbn; [reflexivity|]. destruct x; auto. destruct (nth_error cs i); auto. Qed.
  Lemma get_weights_pick x : get_weights is_lin w x = rmap (PNode (3, []) klist) (mapM (pick x) (map at_weight (olayers x))).
  Proof.
    unfold get_weights. f_equal. pose proof (found_layers x) as H. induction H as [|p y ps ys Hp _ IH]; [reflexivity|].
    cbn [mapM map]. rewrite IH. change (pick x (at_weight p)) with (pick x (p ++ [w])). rewrite pick_app, Hp. cbn [bind]. unfold weight. cbn [pick].
    destruct y; try reflexivity.
  Qed.

  (** The function is a choice of positions. *)
  Lemma tree_at_weights aeq (t : tree A) r f :
    tree_at aeq (fun _ => false) (get_weights is_lin w) t r f =
    tree_at aeq (fun _ => false) (where_many (map at_weight (layers t))) t r f.
  Proof.
    unfold tree_at. rewrite !get_weights_pick. rewrite (olayers_erase (copy1 [] t)) by apply plain_copy1. rewrite erase_copy1.
    rewrite (olayers_erase (copy2 _ [] (copy1 [] t))) by apply plain_copy2. rewrite erase_copy2, erase_copy1. unfold where_many.
    destruct (mapM (pick (copy1 [] t)) _) as [l1|e]; [|reflexivity]. cbn [rmap bind].
    destruct (mapM (pick (copy2 _ [] (copy1 [] t))) _) as [l2|e]; [|reflexivity]. cbn [rmap bind].
    assert (EC : check_where aeq (fun _ => false) (PNode (3, []) klist l1) (PNode (3, []) klist l2) =
                 check_where aeq (fun _ => false) (PNode (3, []) ktuple l1) (PNode (3, []) ktuple l2)) by reflexivity.
    rewrite EC. destruct (check_where _ _ _ _); [|reflexivity]. cbn [bind].
    change (fun _ : pyobj A => false) with (by_value (A := A) (fun _ => false)).
    change (copy2 (by_value (fun _ : tree A => false)) [] (copy1 [] t)) with (D (fun _ : tree A => false) [] t).
    rewrite !in_pytree_fresh. reflexivity.
  Qed.

  Lemma weights_of t ws : weights is_lin w t = Ok ws -> Forall2 (fun p s => sub t p = Some s) (map at_weight (layers t)) ws.
  Proof.
    unfold weights. rewrite get_weights_pick, (olayers_erase _ (plain_embed t)), erase_embed.
    destruct (mapM _ _) as [l|e] eqn:E; [|discriminate]. cbn. intros H. injection H as <-. apply mapM_Forall2 in E.
    induction E as [|p y ps ys H _ IH]; cbn; constructor; auto. clear -H. revert t H. induction p as [|i p IH]; intros t H; cbn in *.
    - injection H as <-. rewrite erase_embed. reflexivity.
    - destruct t as [| |k cs]; try discriminate. cbn in H. rewrite nth_error_map in H. destruct (nth_error cs i); [|discriminate]. cbn in H. auto.
  Qed.
  Lemma weights_ok t ws : Forall2 (fun p s => sub t p = Some s) (map at_weight (layers t)) ws -> weights is_lin w t = Ok ws.
  Proof.
    intros H. unfold weights. rewrite get_weights_pick, (olayers_erase _ (plain_embed t)), erase_embed.
    assert (E : mapM (pick (embed t)) (map at_weight (layers t)) = Ok (map embed ws)).
    { induction H as [|p s ps ss Hp _ IH]; [reflexivity|]. cbn [mapM map]. rewrite IH.
      assert (G : pick (embed t) p = Ok (embed s)); [|rewrite G; reflexivity].
      clear -Hp. revert t Hp. induction p as [|i p IH]; intros t H; cbn in *; [congruence|].
      destruct t as [| |k cs]; try discriminate. cbn. rewrite nth_error_map. destruct (nth_error cs i); [|discriminate]. cbn. auto. }
    rewrite E. cbn. rewrite map_map. rewrite (map_ext _ (fun x => x)) by apply erase_embed. rewrite map_id. reflexivity.
  Qed.

  (** The positions. *)
  Lemma In_layers t p : In p (layers t) <-> layer_at is_lin t p.
  Proof.
    clear no_tuple. revert p. induction t as [a| |k cs IH] using tree_ind'; intros p.
    - cbn. split; [intros []|]. intros [(k & cs & _ & E) _]. destruct p; discriminate.
    - cbn. split; [intros []|]. intros [(k & cs & _ & E) _]. destruct p; discriminate.
    - cbn [layers]. destruct (is_lin k) eqn:E.
      + split.
        * intros [<-|[]]. split; [exists k, cs; auto|]. intros q k' cs' (i & r & H). destruct q; discriminate.
        * intros [_ H]. destruct p as [|i p]; [left; reflexivity|]. exfalso. specialize (H [] k cs (strict_nil i p) eq_refl). congruence.
      + assert (G : In p (concat (mapi (fun i c => map (cons i) (layers c)) 0 cs)) <->
          exists i c p', nth_error cs i = Some c /\ p = i :: p' /\ In p' (layers c)).
        { rewrite in_concat. split.
          - intros (l & Hl & Hp). apply In_nth_error in Hl as [n Hl]. rewrite nth_error_mapi in Hl.
            destruct (nth_error cs n) as [c|] eqn:Hn; [|discriminate]. cbn in Hl. injection Hl as <-.
            apply in_map_iff in Hp as (p' & <- & Hp). eauto 7.
          - intros (i & c & p' & Hn & -> & Hp). exists (map (cons i) (layers c)). split; [|apply in_map; exact Hp].
            apply nth_error_In with i. rewrite nth_error_mapi, Hn. reflexivity. }
        rewrite G. clear G. rewrite Forall_forall in IH. split.
        * intros (i & c & p' & Hn & -> & Hp). apply (IH c (nth_error_In _ _ Hn)) in Hp as [(k' & cs' & Hk & Hs) Ho]. split.
          -- exists k', cs'. split; [exact Hk|]. cbn [sub]. rewrite Hn. exact Hs.
          -- intros [|j q] k2 cs2 HP Hq; cbn [sub] in Hq; [congruence|]. apply strict_prefix_cons in HP as [-> HP]. rewrite Hn in Hq. eauto.
        * intros [(k' & cs' & Hk & Hs) Ho]. destruct p as [|i p']; cbn [sub] in Hs; [congruence|].
          destruct (nth_error cs i) as [c|] eqn:Hn; [|discriminate]. exists i, c, p'. split; [exact Hn|]. split; [reflexivity|].
          apply (IH c (nth_error_In _ _ Hn)). split; [eauto|]. intros q k2 cs2 HP Hq. apply (Ho (i :: q) k2 cs2).
          -- apply strict_prefix_cons. auto.
          -- cbn [sub]. rewrite Hn. exact Hq.
  Qed.
  Lemma FOP_app {X} (R : X -> X -> Prop) l r : ForallOrdPairs R l -> ForallOrdPairs R r -> (forall x y, In x l -> In y r -> R x y) -> ForallOrdPairs R (l ++ r).
  Proof. try clear no_tuple.
    induction 1 as [|x l Hx _ IH]; intros Hr HC; [exact Hr|]. cbn [app]. constructor.
    - apply Forall_app. split; [exact Hx|]. apply Forall_forall. intros y Hy. apply HC; [left; reflexivity|exact Hy].
    - apply IH; auto. intros a b Ha Hb. apply HC; [right; exact Ha|exact Hb].
  Qed.
  Lemma layers_ordered t : ForallOrdPairs left_of (layers t).
  Proof. try clear no_tuple.
    induction t as [a| |k cs IH] using tree_ind'; try constructor. cbn [layers]. destruct (is_lin k); [repeat constructor|].
    generalize 0 as n. induction IH as [|c cs Hc _ IHc]; intros n; [constructor|]. cbn [mapi concat]. apply FOP_app.
    - clear -Hc. induction Hc as [|x l Hx _ IH]; cbn [map]; constructor; auto. apply Forall_forall. intros y Hy. apply in_map_iff in Hy as (y' & <- & Hy).
      rewrite Forall_forall in Hx. destruct (Hx y' Hy) as (r & i & j & p' & q' & -> & -> & Hlt). exists (n :: r), i, j, p', q'. auto.
    - apply IHc.
    - intros x y Hx Hy. apply in_map_iff in Hx as (x' & <- & _). apply in_concat in Hy as (l & Hl & Hy). apply In_nth_error in Hl as [m Hl].
      rewrite nth_error_mapi in Hl. destruct (nth_error cs m); [|discriminate]. cbn in Hl. injection Hl as <-. apply in_map_iff in Hy as (y' & <- & _).
      exists [], n, (S n + m), x', y'. split; [reflexivity|]. split; [reflexivity|]. clear. lia.
  Qed.
  Lemma all_layers_ok t : all_layers is_lin t (layers t).
  Proof. try clear no_tuple. split; [intros p; apply In_layers|apply layers_ordered]. Qed.
  Lemma left_of_not_prefix p q : left_of p q -> ~ prefix p q /\ ~ prefix q p.
  Proof. try clear no_tuple.
    intros (r & i & j & p' & q' & -> & -> & Hlt). split; intros [s E]; rewrite <- app_assoc in E; apply app_inv_head in E; cbn in E; injection E as E _; clear -E Hlt; lia.
  Qed.
  Lemma left_of_at p q : left_of p q -> left_of (at_weight p) (at_weight q).
  Proof. try clear no_tuple.
    intros (r & i & j & p' & q' & -> & -> & Hlt). exists r, i, j, (p' ++ [w]), (q' ++ [w]). unfold at_weight. rewrite <- !app_assoc. auto.
  Qed.
  Lemma ordered_separate ps : ForallOrdPairs left_of ps -> separate ps.
  Proof. try clear no_tuple.
    intros H. split.
    - induction H as [|x l Hx _ IH]; constructor; auto. intros HI. rewrite Forall_forall in Hx. destruct (left_of_not_prefix x x (Hx x HI)) as [HN _]. apply HN, prefix_refl.
    - induction H as [|x l Hx _ IH]; intros p q Hp Hq HS; [destruct Hp|]. rewrite Forall_forall in Hx. pose proof (strict_prefix_prefix _ _ HS) as HP.
      destruct Hp as [<-|Hp], Hq as [<-|Hq].
      + apply (strict_prefix_irrefl _ HS).
      + destruct (left_of_not_prefix x q (Hx q Hq)) as [HN _]. exact (HN HP).
      + destruct (left_of_not_prefix x p (Hx p Hp)) as [_ HN]. exact (HN HP).
      + exact (IH p q Hp Hq HS).
  Qed.
  Lemma weights_separate t : separate (map at_weight (layers t)).
  Proof. try clear no_tuple.
    apply ordered_separate. pose proof (layers_ordered t) as H. induction H as [|x l Hx _ IH]; cbn [map]; constructor; auto.
    apply Forall_forall. intros y Hy. apply in_map_iff in Hy as (y' & <- & Hy). rewrite Forall_forall in Hx. apply left_of_at. auto.
  Qed.
End Positions.

Section Surgery.
  Context {A K : Type}.
  Variable aeq : A -> A -> bool.
  Hypothesis aeq_refl : forall a, aeq a a = true.
  Variable is_lin : nat -> bool.
  Hypothesis no_tuple : is_lin ktuple = false.
  Variable w : nat.
  Variable split : K -> nat -> list K.
  Hypothesis split_length : forall k n, length (split k n) = n.
  Local Notation init := (init_linear_weight aeq is_lin w split).

  (** What comes out is the model with, at the weight of each linear layer, what [init_fn] makes of that weight and of the
      key belonging to the layer: the keys go to the layers from left to right. Nothing else is changed. *)
  Theorem C106_init : forall init_fn model key out, init init_fn model key = Ok out ->
    exists ps ws news, all_layers is_lin model ps /\
      Forall2 (fun p s => sub model (p ++ [w]) = Some s) ps ws /\
      mapM (fun wk => init_fn (fst wk) (snd wk)) (List.combine ws (split key (length ps))) = Ok news /\
      length news = length ps /\
      edited model (List.combine (map (fun p => p ++ [w]) ps) news) out.
  Proof.
    intros init_fn model key out H. unfold init_linear_weight in H. apply bind_ok in H as (ws & Hw & H). apply bind_ok in H as (news & Hn & H).
    rewrite (tree_at_weights is_lin no_tuple) in H. exists (layers is_lin model), ws, news.
    pose proof (weights_of is_lin no_tuple w model ws Hw) as HF. destruct (weights_separate is_lin w model) as [S1 S2].
    apply (C06_put_get A aeq (fun _ => false) aeq_refl) in H; auto. destruct H as [HL HE]. rewrite map_length in HL.
    split; [apply all_layers_ok|]. split; [clear -HF; revert ws HF; induction (layers is_lin model); intros ws HF; cbn in HF; inversion HF; subst; constructor; auto|].
    split; [|auto]. apply Forall2_length' in HF || apply Forall2_len in HF. rewrite map_length in HF. rewrite HF. exact Hn.
  Qed.
  (** It works if every linear layer has a weight, other than [None], for which [init_fn] returns. *)
  Theorem C106_init_works : forall (init_fn : tree A -> K -> res (tree A)) model key,
    (forall p, layer_at is_lin model p -> exists s, sub model (p ++ [w]) = Some s /\ s <> TNone /\ forall k, exists r, init_fn s k = Ok r) ->
    exists out, init init_fn model key = Ok out.
  Proof.
    intros init_fn model key H. unfold init_linear_weight.
    assert (HF : exists ws, Forall2 (fun p s => sub model p = Some s) (map (at_weight w) (layers is_lin model)) ws /\
      forall s, In s ws -> forall k, exists r, init_fn s k = Ok r).
    { assert (G : forall p, In p (layers is_lin model) -> exists s, sub model (p ++ [w]) = Some s /\ s <> TNone /\ forall k, exists r, init_fn s k = Ok r)
        by (intros p Hp; apply H, In_layers; exact Hp).
      clear H. induction (layers is_lin model) as [|p ps IH]; [exists []; split; [constructor|intros s []]|].
      destruct (G p (or_introl eq_refl)) as (s & Hs & _ & Hk). destruct IH as (ws & HF & HW); [intros q Hq; apply G; right; exact Hq|].
      exists (s :: ws). split; [constructor; auto|]. intros s' [<-|Hin]; auto. }
    destruct HF as (ws & HF & HW). rewrite (weights_ok is_lin no_tuple w model ws HF). cbn [bind].
    assert (HN : exists news, mapM (fun wk => init_fn (fst wk) (snd wk)) (List.combine ws (split key (length ws))) = Ok news /\ length news = length ws).
    { generalize (split_length key (length ws)). generalize (split key (length ws)). clear -HW. induction ws as [|s ws IH]; intros [|k ks] HL; try discriminate; [exists []; auto|].
      cbn [List.combine mapM fst snd]. destruct (HW s (or_introl eq_refl) k) as (r & ->). destruct (IH (fun s' Hin => HW s' (or_intror Hin)) ks) as (news & -> & HE); [cbn in HL; congruence|].
      exists (r :: news). split; [reflexivity|cbn; congruence]. }
    destruct HN as (news & -> & HL). cbn [bind]. rewrite (tree_at_weights is_lin no_tuple).
    destruct (weights_separate is_lin w model) as [S1 S2].
    apply (C07_accepts_iff A aeq (fun _ => false) aeq_refl); [reflexivity|reflexivity|]. split.
    - apply Forall2_len in HF. congruence.
    - intros p Hp. apply in_map_iff in Hp as (p' & <- & Hp). destruct (H p' (proj1 (In_layers is_lin model p') Hp)) as (s & Hs & HN & _). split; [|split].
      + clear -Hs. unfold at_weight. revert model Hs. generalize (p' ++ [w]) as p. induction p as [|i p IH]; intros t Hs; [constructor|]. cbn in Hs.
        destruct t as [| |k cs]; try discriminate. destruct (nth_error cs i) eqn:E; [|discriminate]. econstructor; eauto.
      + intros _ q Hq. apply S2; auto. apply in_map; exact Hp.
      + intros (_ & HB & _). unfold at_weight in HB. congruence.
  Qed.

  (** ** Symmetric weights *)
  Variable sym : nat.
  Local Notation symmetric := (symmetric_model aeq is_lin w sym).

  Theorem C106_symmetric : forall model out, symmetric model = Ok out ->
    exists ps ws, all_layers is_lin model ps /\ Forall2 (fun p s => sub model (p ++ [w]) = Some s) ps ws /\
      edited model (List.combine (map (fun p => p ++ [w]) ps) (map (fun s => Node sym [s]) ws)) out.
  Proof.
    intros model out H. unfold symmetric_model in H. rewrite (tree_at_weights is_lin no_tuple) in H.
    change (fun x : pyobj A => Ok (PNode (4, []) sym [embed (erase x)])) with (fn_by_value (fun v : tree A => Ok (Node sym [v]))) in H.
    change (fun _ : pyobj A => false) with (by_value (A := A) (fun _ => false)) in H.
    destruct (many_ok_sel aeq (fun _ => false) model _ _ _ _ H) as (l & HS & HM & _).
    pose proof (selected_Forall2 _ _ l HS) as HF. rewrite HM in HF.
    rewrite (C08_replace_fn A aeq (fun _ => false) aeq_refl model _ _ (map snd l) (map (fun s => Node sym [s]) (map snd l))) in H.
    - destruct (weights_separate is_lin w model) as [S1 S2]. apply (C06_put_get A aeq (fun _ => false) aeq_refl) in H; auto. destruct H as [HL HE].
      exists (layers is_lin model), (map snd l). split; [apply all_layers_ok|]. split; [|exact HE].
      clear -HF. revert HF. generalize (map snd l). induction (layers is_lin model); intros ws HF; cbn in HF; inversion HF; subst; constructor; auto.
    - exact HF.
    - clear. induction (map snd l) as [|s ss IH]; [reflexivity|]. cbn [mapM map bind]. rewrite IH. reflexivity.
    - reflexivity.
    - destruct HS as [_ S2]. intros p Hp. rewrite <- HM in Hp. apply in_map_iff in Hp as ([q s] & <- & Hp). eapply S2; eauto.
  Qed.


  Local Notation resolve := (resolve_symmetric sym).
  Lemma resolve_leaf (g : tree A -> tree A) x : is_symmetric sym x = false -> label_of (resolve g x) = label_of x.
  Proof.
    intros H. unfold resolve_symmetric. destruct x as [a| |k cs]; try reflexivity. cbn [tmap]. rewrite H. cbn. rewrite map_length. reflexivity.
  Qed.
  Lemma sub_resolve (g : tree A -> tree A) q : forall t : tree A, (forall q' cs, strict_prefix q' q -> sub t q' <> Some (Node sym cs)) ->
    sub (resolve g t) q = option_map (resolve g) (sub t q).
  Proof.
    induction q as [|i q IH]; intros t H; [reflexivity|]. destruct t as [a| |k cs]; try reflexivity.
    unfold resolve_symmetric. cbn [tmap is_symmetric]. destruct (Nat.eqb_spec k sym) as [->|N].
    - exfalso. apply (H [] cs (strict_nil i q)). reflexivity.
    - cbn [sub]. rewrite nth_error_map. destruct (nth_error cs i) as [c|] eqn:E; [|reflexivity]. cbn [option_map]. apply IH.
      intros q' cs' HP Hs. apply (H (i :: q') cs'); [apply strict_prefix_cons; auto|]. cbn [sub]. rewrite E. exact Hs.
  Qed.
  Lemma prefix_trans (p q r : path) : prefix p q -> prefix q r -> prefix p r.
  Proof. intros [x ->] [y ->]. exists (x ++ y). rewrite app_assoc. reflexivity. Qed.

  (** Resolving the wrapped model gives the model with [get] of each weight instead of the weight, and nothing else
      changed, provided it had no [Symmetric] before. *)
  Theorem C106_resolve : forall model out, symmetric model = Ok out -> (forall p cs, sub model p <> Some (Node sym cs)) ->
    exists ps ws, all_layers is_lin model ps /\ Forall2 (fun p s => sub model (p ++ [w]) = Some s) ps ws /\
      forall g, edited model (List.combine (map (fun p => p ++ [w]) ps) (map g ws)) (resolve g out).
  Proof.
    intros model out H NS. destruct (C106_symmetric model out H) as (ps & ws & HP & HF & HE). exists ps, ws. split; [exact HP|]. split; [exact HF|].
    intros g. destruct HP as [HA HO].
    assert (SEP : separate (map (fun p => p ++ [w]) ps)).
    { apply ordered_separate. clear -HO. induction HO as [|x l Hx _ IH]; cbn [map]; constructor; auto.
      apply Forall_forall. intros y Hy. apply in_map_iff in Hy as (y' & <- & Hy). rewrite Forall_forall in Hx. apply (left_of_at w). auto. }
    assert (CO : forall (f : tree A -> tree A) p r, In (p, r) (List.combine (map (fun p => p ++ [w]) ps) (map f ws)) <->
                   exists s, In (p, s) (List.combine (map (fun p => p ++ [w]) ps) ws) /\ r = f s).
    { intros f p r. clear. generalize (map (fun p => p ++ [w]) ps) as l. induction ws as [|x l' IH]; intros l.
      { destruct l; (split; [intros []|intros (s & [] & _)]). }
      destruct l as [|q l]; [split; [intros []|intros (s & [] & _)]|]. cbn [List.combine map In]. rewrite IH. split.
      - intros [E|(s & Hs & ->)]; [injection E as -> <-; eauto|eauto].
      - intros (s & [E|Hs] & ->); [injection E as -> ->; auto|eauto]. }
    assert (LEN : length ws = length ps) by (symmetry; exact (Forall2_len _ _ _ HF)).
    assert (HK : forall f p, In p (map (fun p => p ++ [w]) ps) -> exists r : tree A, In (p, r) (List.combine (map (fun p => p ++ [w]) ps) (map f ws))).
    { intros f p Hp. assert (L2 : length (map f ws) = length (map (fun p => p ++ [w]) ps)) by (rewrite !map_length; exact LEN).
      clear -Hp L2. revert L2 Hp. generalize (map (fun p => p ++ [w]) ps) as l. generalize (map f ws) as l'. induction l' as [|x l' IH]; intros [|q l] L2 Hp; cbn in *; try discriminate; [destruct Hp|].
      destruct Hp as [->|Hp]; [eauto|]. destruct (IH l) as (r & Hr); [congruence|exact Hp|]. eauto. }
    assert (FREE : forall q, (forall p, In p (map (fun p => p ++ [w]) ps) -> ~ prefix p q) -> label_at out q = label_at model q).
    { intros q Hq. destruct HE as [_ HE]. apply HE. intros p r Hin. apply Hq. apply in_combine_l in Hin. exact Hin. }
    assert (NOSYM : forall q cs, (forall p, In p (map (fun p => p ++ [w]) ps) -> ~ prefix p q) -> sub out q <> Some (Node sym cs)).
    { intros q cs Hq E. pose proof (FREE q Hq) as EL. unfold label_at in EL. rewrite E in EL. cbn in EL.
      destruct (sub model q) as [[a| |k ds]|] eqn:EM; cbn in EL; try discriminate. injection EL as <- _. exact (NS q ds EM). }
    split.
    - intros p r Hin. apply CO in Hin as (s & Hs & ->). destruct HE as [HE _].
      assert (Ho : sub out p = Some (Node sym [s])) by (apply HE, (CO (fun s => Node sym [s])); eauto).
      rewrite sub_resolve.
      + rewrite Ho. cbn [option_map]. unfold resolve_symmetric. cbn [tmap is_symmetric maybe_symmetric]. rewrite Nat.eqb_refl. reflexivity.
      + intros q' cs HSP. apply NOSYM. intros p' Hp' HPP. destruct SEP as [_ S2]. apply in_combine_l in Hs. apply (S2 p' p Hp' Hs).
        destruct HSP as (i & z & ->), HPP as (y & ->). destruct y as [|j y]; [exists i, z; rewrite app_nil_r; reflexivity|].
        exists j, (y ++ i :: z). rewrite <- app_assoc. reflexivity.
    - intros q Hq.
      assert (Hq' : forall p, In p (map (fun p => p ++ [w]) ps) -> ~ prefix p q).
      { intros p Hp. destruct (HK g p Hp) as (r & Hr). exact (Hq p r Hr). }
      rewrite <- FREE by exact Hq'. unfold label_at. rewrite sub_resolve.
      + destruct (sub out q) as [x|] eqn:E; [|reflexivity]. cbn [option_map]. f_equal. apply resolve_leaf. destruct x as [a| |k cs]; try reflexivity.
        cbn. destruct (Nat.eqb_spec k sym) as [->|]; [|reflexivity]. exfalso. exact (NOSYM q cs Hq' E).
      + intros q' cs HSP. apply NOSYM. intros p Hp HPP. apply (Hq' p Hp). eapply prefix_trans; [exact HPP|]. apply strict_prefix_prefix. exact HSP.
  Qed.
  (** The wrapped model has the leaves of the model, in the same order: the same arrays get gradients. *)
  Lemma labels_resolve (t : tree A) : labels (resolve (fun m => m) t) = labels t.
  Proof.
    induction t as [a| |k cs IH] using tree_ind'; try reflexivity. unfold resolve_symmetric. cbn [tmap is_symmetric]. destruct (Nat.eqb k sym) eqn:E.
    - cbn [maybe_symmetric]. destruct cs as [|c [|]]; try reflexivity. rewrite E. cbn. rewrite app_nil_r. reflexivity.
    - cbn [labels]. f_equal. rewrite map_map. induction IH as [|c cs Hc _ IHc]; [reflexivity|]. cbn [map]. f_equal; auto.
  Qed.
  Theorem C106_same_leaves : forall model out, symmetric model = Ok out -> (forall p cs, sub model p <> Some (Node sym cs)) ->
    labels out = labels model /\ resolve (fun m => m) out = model.
  Proof.
    intros model out H NS. destruct (C106_resolve model out H NS) as (ps & ws & _ & HF & HE). specialize (HE (fun m => m)). rewrite map_id in HE.
    assert (E : resolve (fun m => m) out = model).
    { apply (C06_determined A model _ _ _ HE). split; [|auto]. intros p r Hin. clear -HF Hin.
      induction HF as [|q s qs ss Hq _ IH]; cbn in Hin; [destruct Hin|]. destruct Hin as [E|Hin]; [injection E as <- <-; exact Hq|auto]. }
    split; [|exact E]. rewrite <- labels_resolve, E. reflexivity.
  Qed.
End Surgery.
Print Assumptions C106_init.
Print Assumptions C106_init_works.
Print Assumptions C106_symmetric.
Print Assumptions C106_resolve.
Print Assumptions C106_same_leaves.

(** ** Examples *)
(** Two layers of kind 7 and 8 (weight and bias, the second without bias), between them a leaf; keys are numbers. *)
Definition ex_lin (k : nat) : bool := (k =? 7) || (k =? 8).
Definition ex_model : tree nat := Node klist [Node 7 [Leaf 10; Leaf 11]; Leaf 5; Node ktuple [Node 8 [Leaf 20; TNone]; Node ktuple []]].
Definition ex_split (k n : nat) : list nat := map (fun i => 100 * k + i) (seq 0 n).
Definition ex_init (t : tree nat) (k : nat) : res (tree nat) := match t with Leaf a => Ok (Leaf (a + k)) | _ => Err TypeError end.
Example C106_ex : init_linear_weight Nat.eqb ex_lin 0 ex_split ex_init ex_model 3 =
    Ok (Node klist [Node 7 [Leaf 310; Leaf 11]; Leaf 5; Node ktuple [Node 8 [Leaf 321; TNone]; Node ktuple []]]) /\
  all_layers ex_lin ex_model [[0]; [2; 0]].
Proof. split; [reflexivity|]. apply (all_layers_ok ex_lin ex_model). Qed.
Example C106_symmetric_ex : symmetric_model Nat.eqb ex_lin 0 9 ex_model =
    Ok (Node klist [Node 7 [Node 9 [Leaf 10]; Leaf 11]; Leaf 5; Node ktuple [Node 8 [Node 9 [Leaf 20]; TNone]; Node ktuple []]]) /\
  rmap (resolve_symmetric 9 (fun m => match m with Leaf a => Leaf (a + a) | _ => m end)) (symmetric_model Nat.eqb ex_lin 0 9 ex_model) =
    Ok (Node klist [Node 7 [Leaf 20; Leaf 11]; Leaf 5; Node ktuple [Node 8 [Leaf 40; TNone]; Node ktuple []]]).
Proof. split; reflexivity. Qed.
(** A layer whose weight is [None] (say after [partition]) is refused if the model has another [None]. *)
Example C106_none_ex : init_linear_weight Nat.eqb ex_lin 0 ex_split (fun _ _ => Ok (Leaf 1)) (Node klist [Node 7 [TNone; TNone]]) 3 = Err ValueError.
Proof. reflexivity. Qed.
