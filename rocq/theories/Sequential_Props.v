(** C43: Sequential. *)
From Verif Require Import Sequential_Model.
Local Open Scope nat_scope.
Local Open Scope list_scope.

Section Sequential.
  Variables (X S K : Type).
  Variable split : K -> nat -> list K.
  Local Notation layer := (layer X S K).
  Local Notation call := (call X S K split).
  Local Notation keys_for := (keys_for K split).
  Local Notation is_stateful := (is_stateful X S K).

  Section Ind.
    Variable P : layer -> Prop.
    Hypothesis HPlain : forall f, P (Plain X S K f).
    Hypothesis HStateful : forall f, P (Stateful X S K f).
    Hypothesis HSeq : forall ls, Forall P ls -> P (Seq X S K ls).
    Fixpoint layer_ind' (l : layer) : P l :=
      match l with
      | Plain _ _ _ f => HPlain f
      | Stateful _ _ _ f => HStateful f
      | Seq _ _ _ ls => HSeq ls ((fix go (ls : list layer) : Forall P ls := match ls with [] => Forall_nil _ | l :: ls' => Forall_cons _ (layer_ind' l) (go ls') end) ls)
      end.
  End Ind.

  (** *** Specification: the innermost layers in order, each with its key *)
  Section Zip.
    Variable f : layer -> option K -> list (layer * option K).
    Fixpoint assigns (ls : list layer) (ks : list (option K)) : list (layer * option K) :=
      match ls, ks with l :: ls', k :: ks' => f l k ++ assigns ls' ks' | _, _ => [] end.
  End Zip.
  Fixpoint assign (l : layer) (k : option K) : list (layer * option K) :=
    match l with Seq _ _ _ ls => assigns assign ls (keys_for k (length ls)) | _ => [(l, k)] end.
  Fixpoint run (ps : list (layer * option K)) (x : X) (s : option S) : res (X * option S) :=
    match ps with
    | [] => Ok (x, s)
    | (Plain _ _ _ f, k) :: ps' => y <- f x k ;; run ps' y s
    | (Stateful _ _ _ f, k) :: ps' => '(y, s') <- f x s k ;; run ps' y s'
    | (Seq _ _ _ _, _) :: ps' => Err TypeError
    end.
  (** Stateful layers return a state if they are given one. *)
  Fixpoint keeps (l : layer) : Prop :=
    match l with
    | Plain _ _ _ _ => True
    | Stateful _ _ _ f => forall x s k y s', f x (Some s) k = Ok (y, s') -> s' <> None
    | Seq _ _ _ ls => (fix go (ls : list layer) : Prop := match ls with [] => True | l :: ls' => keeps l /\ go ls' end) ls
    end.
  Lemma keeps_seq ls : keeps (Seq X S K ls) <-> Forall keeps ls.
  Proof. induction ls as [|l ls IH]; [split; [constructor|cbn; auto]|]. change (keeps l /\ keeps (Seq X S K ls) <-> Forall keeps (l :: ls)). rewrite IH. split; [intros [A B]; auto|intros H; inversion H; auto]. Qed.

  Lemma run_app ps : forall qs x s, run (ps ++ qs) x s = ('(y, s') <- run ps x s ;; run qs y s').
  Proof.
    induction ps as [|[l k] ps IH]; intros qs x s; [auto|]. cbn [app run]. destruct l; cbn [bind]; auto.
    - destruct (f x k); cbn [bind]; auto.
    - destruct (f x s k) as [[y s']|]; cbn [bind]; auto.
  Qed.
  Definition wrap (r : res (X * option S)) (b : bool) : res (output X S) := '(y, s') <- r ;; Ok (if b then Pair X S y s' else Bare X S y).
  (** Without a stateful layer the state is untouched. *)
  Definition stateless (l : layer) := is_stateful l = false -> forall x s k,
    run (assign l k) x s = ('(y, _) <- run (assign l k) x None ;; Ok (y, s)) /\ (forall y s', run (assign l k) x s = Ok (y, s') -> s' = s) /\
    (call l x None k = wrap (run (assign l k) x None) false).
  Lemma stateless_loop ls : Forall stateless ls -> existsb is_stateful ls = false -> forall ks x s,
    run (assigns assign ls ks) x s = ('(y, _) <- run (assigns assign ls ks) x None ;; Ok (y, s)) /\ (forall y s', run (assigns assign ls ks) x s = Ok (y, s') -> s' = s) /\
    loop X S K call ls ks x s = run (assigns assign ls ks) x s.
  Proof.
    induction 1 as [|l ls Hl _ IH]; intros HE ks x s; [cbn; repeat split; congruence|]. cbn [existsb] in HE. apply orb_false_iff in HE as [E1 E2]. destruct ks as [|k ks]; [cbn; repeat split; congruence|]. cbn [assigns loop]. rewrite !run_app, E1.
    destruct (Hl E1 x s k) as (A1 & A2 & A3). rewrite A1, A3. destruct (run (assign l k) x None) as [[y t]|e] eqn:ER; cbn [bind wrap]; [|repeat split; congruence].
    destruct (Hl E1 x None k) as (_ & A4 & _). pose proof (A4 _ _ ER). subst t. destruct (IH E2 ks y s) as (B1 & B2 & B3). destruct (IH E2 ks y None) as (C1 & C2 & C3). split; [auto|]. split; [auto|]. auto.
  Qed.
  Lemma stateless_all l : stateless l.
  Proof.
    induction l as [f|f|ls IH] using layer_ind'.
    - intros _ x s k. cbn. destruct (f x k); cbn; repeat split; congruence.
    - intros E. discriminate.
    - intros E x s k. cbn [is_stateful Sequential_Model.is_stateful] in E. cbn [assign]. destruct (stateless_loop ls IH E (keys_for k (length ls)) x s) as (A & B & C). destruct (stateless_loop ls IH E (keys_for k (length ls)) x None) as (A' & B' & C'). split; [auto|]. split; [auto|].
      cbn [Sequential_Model.call]. rewrite C'. unfold wrap. destruct (run _ x None) as [[y s']|e] eqn:R; [|auto]. cbn [bind]. rewrite (B' _ _ eq_refl). auto.
  Qed.
  Definition threads (l : layer) := keeps l -> forall x s k, (is_stateful l = true -> call l x (Some s) k = wrap (run (assign l k) x (Some s)) true) /\ (forall y s', run (assign l k) x (Some s) = Ok (y, s') -> s' <> None).
  Lemma threads_loop ls : Forall threads ls -> Forall keeps ls -> forall ks x s,
    loop X S K call ls ks x (Some s) = run (assigns assign ls ks) x (Some s) /\ (forall y s', run (assigns assign ls ks) x (Some s) = Ok (y, s') -> s' <> None).
  Proof.
    induction 1 as [|l ls Hl _ IH]; intros HK ks x s; [cbn; split; [auto|congruence]|]. inversion HK as [|? ? K1 K2]; subst. destruct ks as [|k ks]; [cbn; split; [auto|congruence]|]. cbn [assigns loop]. rewrite !run_app.
    destruct (Hl K1 x s k) as (A1 & A2). destruct (is_stateful l) eqn:E.
    - rewrite A1 by auto. destruct (run (assign l k) x (Some s)) as [[y s']|e] eqn:R; cbn [bind wrap]; [|split; [auto|discriminate]]. destruct s' as [s'|]; [|exfalso; eapply A2; eauto]. apply IH; auto.
    - destruct (stateless_all l E x (Some s) k) as (B1 & _ & _). destruct (stateless_all l E x None k) as (_ & _ & B3). rewrite B1, B3. destruct (run (assign l k) x None) as [[y s']|e]; cbn [bind wrap]; [apply IH; auto|split; [auto|discriminate]].
  Qed.
  Lemma threads_all l : threads l.
  Proof.
    induction l as [f|f|ls IH] using layer_ind'.
    - intros _ x s k. cbn. split; [discriminate|]. destruct (f x k); cbn; congruence.
    - intros HK x s k. cbn in *. split; [intros _; unfold wrap; destruct (f x (Some s) k) as [[y s']|]; auto|]. intros y s' H. destruct (f x (Some s) k) as [[y0 s0]|] eqn:E; [|discriminate]. cbn in H. injection H as <- <-. eapply HK; eauto.
    - intros HK x s k. apply keeps_seq in HK. destruct (threads_loop ls IH HK (keys_for k (length ls)) x s) as (A & B). split; [|apply B]. intros _. cbn [Sequential_Model.call assign]. rewrite A. unfold wrap. destruct (run _ x (Some s)) as [[y s']|e] eqn:R; [|auto]. cbn [bind]. destruct s'; [auto|]. exfalso. eapply B; eauto.
  Qed.
  Lemma seq_some ls x s k : Forall keeps ls -> call (Seq X S K ls) x (Some s) k = wrap (run (assign (Seq X S K ls) k) x (Some s)) true.
  Proof.
    intros HK. cbn [Sequential_Model.call assign]. assert (HT : Forall threads ls) by (apply Forall_forall; intros; apply threads_all). destruct (threads_loop ls HT HK (keys_for k (length ls)) x s) as (A & B). rewrite A. unfold wrap. destruct (run _ x (Some s)) as [[y s']|e] eqn:R; [|auto]. cbn [bind]. destruct s'; [auto|]. exfalso. eapply B; eauto.
  Qed.
  Lemma assigns_app f ls : forall ms ks js, length ks = length ls -> assigns f (ls ++ ms) (ks ++ js) = assigns f ls ks ++ assigns f ms js.
  Proof. induction ls as [|l ls IH]; intros ms [|k ks] js H; try discriminate; [auto|]. cbn. rewrite IH by auto. apply app_assoc. Qed.
  Lemma assign_none ls : assign (Seq X S K ls) None = flat_map (fun l => assign l None) ls.
  Proof. cbn [assign Sequential_Model.keys_for]. induction ls as [|l ls IH]; [auto|]. cbn [length repeat assigns flat_map]. rewrite IH. auto. Qed.
End Sequential.
Arguments wrap {X S}.

(** Given a state: the innermost layers run in order, the state passes through exactly the stateful ones,
    every layer with the key assigned to it by successive splitting; the result is a pair. *)
Theorem C43_stateful : forall X S K split ls x s k, Forall (keeps X S K) ls ->
  call X S K split (Seq X S K ls) x (Some s) k = wrap (run X S K (assign X S K split (Seq X S K ls) k) x (Some s)) true.
Proof. exact seq_some. Qed.
Print Assumptions C43_stateful.
(** Without a state and without stateful layers: just the value. *)
Theorem C43_stateless : forall X S K split ls x k, is_stateful X S K (Seq X S K ls) = false ->
  call X S K split (Seq X S K ls) x None k = wrap (run X S K (assign X S K split (Seq X S K ls) k) x None) false /\
  forall s, call X S K split (Seq X S K ls) x (Some s) k = ('(y, _) <- run X S K (assign X S K split (Seq X S K ls) k) x None ;; Ok (Pair X S y (Some s))).
Proof.
  intros X S K split ls x k E. split; [destruct (stateless_all X S K split (Seq X S K ls) E x None k) as (_ & _ & H); exact H|]. intros s. cbn [is_stateful] in E. assert (HF : Forall (stateless X S K split) ls) by (apply Forall_forall; intros; apply stateless_all). destruct (stateless_loop X S K split ls HF E (keys_for K split k (length ls)) x (Some s)) as (A & B & C).
  cbn [call assign]. rewrite C, A. destruct (run _ _ _ _ x None) as [[y t]|]; auto.
Qed.
Print Assumptions C43_stateless.
(** Each layer gets its own key. *)
Theorem C43_keys : forall X S K split ls k i l key, length (split k (length ls)) = length ls -> nth_error ls i = Some l -> nth_error (split k (length ls)) i = Some key ->
  exists before after, assign X S K split (Seq X S K ls) (Some k) = before ++ assign X S K split l (Some key) ++ after /\
    before = assigns X S K (assign X S K split) (firstn i ls) (map Some (firstn i (split k (length ls)))).
Proof.
  intros X S K split ls k i l key HL Hl Hk. cbn [assign keys_for]. set (ks := split k (length ls)) in *. clearbody ks. exists (assigns X S K (assign X S K split) (firstn i ls) (map Some (firstn i ks))). clear k.
  revert ks i HL Hl Hk. induction ls as [|m ls IH]; intros [|k ks] i HL Hl Hk; try discriminate; [destruct i; discriminate|]. destruct i as [|i]; cbn in *.
  - injection Hl as ->. injection Hk as ->. eexists. split; [reflexivity|auto].
  - destruct (IH ks i) as (after & -> & _); auto. exists after. rewrite <- app_assoc. auto.
Qed.
Print Assumptions C43_keys.
(** Concatenation and nesting are composition (without a key). *)
Theorem C43_concat : forall X S K split ls ms x s, Forall (keeps X S K) (ls ++ ms) ->
  let seq l := Seq X S K l in
  call X S K split (seq (ls ++ ms)) x (Some s) None =
    (o <- call X S K split (seq ls) x (Some s) None ;; match o with Pair _ _ y s' => call X S K split (seq ms) y s' None | Bare _ _ _ => Err TypeError end) /\
  call X S K split (seq [seq ls; seq ms]) x (Some s) None = call X S K split (seq (ls ++ ms)) x (Some s) None.
Proof.
  intros X S K split ls ms x s HK seq. pose proof HK as HK'. apply Forall_app in HK' as [K1 K2]. unfold seq. split.
  - rewrite !seq_some by auto. rewrite !assign_none, flat_map_app, run_app. rewrite <- !assign_none with (split := split). destruct (run X S K (assign X S K split (Seq X S K ls) None) x (Some s)) as [[y s']|e] eqn:R; [|auto]. cbn [bind wrap].
    destruct s' as [s'|]; [rewrite seq_some by auto; auto|]. exfalso. assert (HT : threads X S K split (Seq X S K ls)) by apply threads_all. destruct (HT (proj2 (keeps_seq X S K ls) K1) x s None) as [_ H]. eapply H; eauto.
  - rewrite !seq_some; auto; [|repeat constructor; apply keeps_seq; auto]. f_equal. f_equal. rewrite (assign_none X S K split [_; _]). cbn [flat_map]. rewrite !assign_none, app_nil_r, flat_map_app. auto.
Qed.
Print Assumptions C43_concat.
Theorem C43_indexing : forall X S K (ls : list (layer X S K)),
  (forall i l, (0 <= i)%Z -> nth_error ls (Z.to_nat i) = Some l -> getitem X S K ls i = Ok l /\ getitem X S K ls (i - Z.of_nat (length ls)) = Ok l) /\
  (forall i, (i < - Z.of_nat (length ls) \/ Z.of_nat (length ls) <= i)%Z -> getitem X S K ls i = Err IndexError) /\
  (forall i, exists a b, getslice X S K ls None (Some i) = Seq X S K a /\ getslice X S K ls (Some i) None = Seq X S K b /\ a ++ b = ls).
Proof.
  intros X S K ls. split; [|split].
  - intros i l Hi Hl. assert (HL : Z.to_nat i < length ls) by (apply nth_error_Some; congruence). unfold getitem. replace (i <? 0)%Z with false by lia. replace ((0 <=? i)%Z && (i <? Z.of_nat (length ls))%Z) with true by lia. rewrite Hl. split; [auto|].
    replace (i - Z.of_nat (length ls) <? 0)%Z with true by lia. replace (i - Z.of_nat (length ls) + Z.of_nat (length ls))%Z with i by lia. replace ((0 <=? i)%Z && (i <? Z.of_nat (length ls))%Z) with true by lia. rewrite Hl. auto.
  - intros i Hi. unfold getitem. set (j := if (i <? 0)%Z then _ else _). replace ((0 <=? j)%Z && (j <? Z.of_nat (length ls))%Z) with false; [auto|]. unfold j. destruct (i <? 0)%Z eqn:E; lia.
  - intros i. unfold getslice. set (c := clamp (length ls) i). assert (Hc : c <= length ls) by (unfold c, clamp; lia). do 2 eexists. split; [reflexivity|]. split; [reflexivity|]. cbn [skipn]. rewrite Nat.sub_0_r, (firstn_all2 (skipn c ls)) by (rewrite skipn_length; auto). apply firstn_skipn.
Qed.
Print Assumptions C43_indexing.

(** Numbers as inputs, states and keys. *)
Definition addk : layer Z Z Z := Plain Z Z Z (fun x k => Ok (match k with Some k => x * 10 + k | None => x * 10 end)%Z).
Definition acc : layer Z Z Z := Stateful Z Z Z (fun x s _ => match s with Some s => Ok (x + 1, Some (s + x))%Z | None => Err ValueError end).
Definition zsplit (k : Z) (n : nat) : list Z := map (fun i => (k * 7 + Z.of_nat n + Z.of_nat i) mod 10)%Z (seq 0 n).
Definition zcall := call Z Z Z zsplit.
Example C43_ex : Forall (keeps Z Z Z) [addk; acc; Seq Z Z Z [acc; addk]] /\
  zcall (Seq Z Z Z [addk; acc; Seq Z Z Z [acc; addk]]) 1%Z (Some 0%Z) None = Ok (Pair Z Z 120 (Some 21))%Z /\
  zcall (Seq Z Z Z [addk; Seq Z Z Z [addk]]) 1%Z (Some 5%Z) (Some 3%Z) = Ok (Pair Z Z 139 (Some 5))%Z /\
  zcall (Seq Z Z Z [addk; acc]) 1%Z None None = Err ValueError.
Proof.
  split; [|repeat split]. repeat constructor; intros x s k y s' H; injection H as _ <-; discriminate.
Qed.
(** With a key, splitting a Sequential changes the keys. *)
Lemma nth_error_firstn' {A} : forall n (l : list A) k, k < n -> nth_error (firstn n l) k = nth_error l k.
Proof. induction n as [|n IH]; intros [|x l] [|k] H; cbn; try lia; auto. apply IH. lia. Qed.
Lemma nth_error_skipn' {A} : forall n (l : list A) k, nth_error (skipn n l) k = nth_error l (n + k).
Proof. induction n as [|n IH]; intros [|x l] k; cbn; auto. destruct k; auto. Qed.
(** Slices, as Python has them. *)
Definition bound (n : nat) (i : Z) : nat := Z.to_nat (Z.max 0 (Z.min (Z.of_nat n) (if Z.ltb i 0 then Z.of_nat n + i else i)))%Z.
Theorem C43_slices : forall X S K (ls : list (layer X S K)) a b,
  let n := length ls in
  let lo := match a with Some i => bound n i | None => 0 end in
  let hi := match b with Some i => bound n i | None => n end in
  exists r, getslice X S K ls a b = Seq X S K r /\ length r = hi - lo /\ forall k, k < hi - lo -> nth_error r k = nth_error ls (lo + k).
Proof.
  intros X S K ls a b n lo hi. assert (HC : forall i, clamp n i = bound n i).
  { intros i. unfold clamp, bound. destruct (i <? 0)%Z eqn:E; lia. }
  assert (HB : forall i, bound n i <= n) by (intros i; unfold bound; lia).
  exists (firstn (hi - lo) (skipn lo ls)). split.
  - unfold getslice. fold n. destruct a, b; rewrite ?HC; reflexivity.
  - assert (Hhi : hi <= n) by (unfold hi; destruct b; auto). split.
    + rewrite firstn_length, skipn_length. fold n. lia.
    + intros k Hk. rewrite nth_error_firstn' by exact Hk. apply nth_error_skipn'.
Qed.
Print Assumptions C43_slices.
Theorem C43_concat_key_refuted : let s l := Seq Z Z Z l in
  zcall (s [addk; addk]) 1%Z None (Some 3%Z) <> (o <- zcall (s [addk]) 1%Z None (Some 3%Z) ;; match o with Bare _ _ y => zcall (s [addk]) y None (Some 3%Z) | o => Ok o end) /\
  zcall (s [s [addk]; s [addk]]) 1%Z None (Some 3%Z) <> zcall (s [addk; addk]) 1%Z None (Some 3%Z).
Proof. split; vm_compute; congruence. Qed.
Print Assumptions C43_concat_key_refuted.

(** A nested Sequential that counts as stateful but whose layers hand back no state makes the outer one fail. *)
Theorem C43_lost_state : forall X S K split ls ms x y s,
  is_stateful X S K (Seq X S K ls) = true -> call X S K split (Seq X S K ls) x s None = Ok (Bare X S y) ->
  call X S K split (Seq X S K (Seq X S K ls :: ms)) x s None = Err ValueError.
Proof.
  intros X S K split ls ms x y s Hs Hc. 
  assert (E : call X S K split (Seq X S K (Seq X S K ls :: ms)) x s None =
    ('(y, s') <- loop X S K (call X S K split) (Seq X S K ls :: ms) (keys_for K split None (length (Seq X S K ls :: ms))) x s ;;
     Ok (match s' with None => Bare X S y | Some _ => Pair X S y s' end))) by reflexivity.
  rewrite E. cbn [keys_for length repeat loop]. rewrite Hs, Hc. reflexivity.
Qed.
Print Assumptions C43_lost_state.
