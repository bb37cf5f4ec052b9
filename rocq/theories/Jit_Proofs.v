(** Lemmas about filter_jit. *)
From Coq Require Export Permutation.
From Verif Require Export Jit_Model Tree_Facts Filters_Proofs Hashable_Proofs.
Local Open Scope nat_scope.
Local Open Scope list_scope.

(** ** Signatures *)
Section Sig.
  Context {V : Type}.
  Implicit Types (ps : list (string * bool)) (kw : list (string * V)) (p : list (option V)).
  Definition disjoint (ns : list string) kw : Prop := forall n, In n ns -> lookup n kw = None.
  Definition keys kw := map fst kw.

  Lemma lookup_none n kw : lookup n kw = None <-> ~ In n (keys kw).
  Proof.
    induction kw as [|[k v] kw IH]; cbn; [tauto|]. destruct (String.eqb_spec n k) as [->|N]; [split; [discriminate|tauto]|]. rewrite IH. split; [intros H [E|E]; [congruence|tauto]|tauto].
  Qed.
  Lemma lookup_in n v kw : NoDup (keys kw) -> (lookup n kw = Some v <-> In (n, v) kw).
  Proof.
    induction kw as [|[k w] kw IH]; cbn; intros HN; [split; [discriminate|tauto]|]. inversion HN as [|? ? H1 H2]; subst. destruct (String.eqb_spec n k) as [->|N].
    - split; [intros E; injection E as ->; auto|]. intros [E|E]; [congruence|]. exfalso. apply H1. apply (in_map fst) in E. auto.
    - rewrite (IH H2). split; [auto|]. intros [E|E]; [congruence|auto].
  Qed.
  Lemma lookup_perm n kw kw' : NoDup (keys kw) -> Permutation kw kw' -> lookup n kw = lookup n kw'.
  Proof.
    intros HN HP. assert (HN' : NoDup (keys kw')) by (eapply Permutation_NoDup; [apply Permutation_map; eauto|auto]). destruct (lookup n kw) as [v|] eqn:E.
    - symmetry. apply lookup_in; auto. eapply Permutation_in; eauto. apply lookup_in; auto.
    - symmetry. apply lookup_none. apply lookup_none in E. intros H. apply E. eapply Permutation_in; [apply Permutation_sym, Permutation_map; eauto|auto].
  Qed.
  Lemma without_keys n kw : NoDup (keys kw) -> NoDup (keys (without n kw)).
  Proof.
    induction kw as [|[k w] kw IH]; cbn; intros HN; [auto|]. inversion HN as [|? ? H1 H2]; subst. destruct (negb _); [|auto]. cbn. constructor; [|apply IH; auto].
    intros HI. apply H1. apply in_map_iff in HI as (e & <- & HI). apply filter_In in HI as [HI _]. apply in_map. auto.
  Qed.
  Lemma without_perm n kw kw' : Permutation kw kw' -> Permutation (without n kw) (without n kw').
  Proof.
    induction 1 as [|[k w] l l' H IH|[k w] [k' w'] l|l l' l'' H1 IH1 H2 IH2]; cbn; auto.
    - destruct (negb _); auto.
    - destruct (negb (String.eqb n k)), (negb (String.eqb n k')); auto. apply perm_swap.
    - eapply perm_trans; eauto.
  Qed.
  Lemma without_none n kw : lookup n kw = None -> without n kw = kw.
  Proof.
    induction kw as [|[k w] kw IH]; cbn; [auto|]. destruct (String.eqb_spec n k); [discriminate|]. intros H. cbn. f_equal. apply IH. auto.
  Qed.
  Lemma lookup_without n m kw : lookup n kw = None -> lookup n (without m kw) = None.
  Proof. intros H. apply lookup_none. apply lookup_none in H. intros HI. apply H. apply in_map_iff in HI as (e & <- & HI). apply filter_In in HI as [HI _]. apply in_map. auto. Qed.
  Lemma lookup_without_same n kw : lookup n (without n kw) = None.
  Proof. apply lookup_none. intros HI. apply in_map_iff in HI as (e & <- & HI). apply filter_In in HI as [_ HI]. rewrite String.eqb_refl in HI. discriminate. Qed.

  Inductive valid : list (string * bool) -> list (option V) -> list V -> Prop :=
  | VD_nil e : valid [] [] e
  | VD_some n d v ps p e : valid ps p e -> valid ((n, d) :: ps) (Some v :: p) e
  | VD_none n ps p : valid ps p [] -> valid ((n, true) :: ps) (None :: p) [].

  Lemma bind_pos_inv ps : forall args kw p e k, bind_pos ps args kw = Ok (p, e, k) -> valid ps p e /\ disjoint (map fst ps) k /\
    (forall n, lookup n kw = None -> lookup n k = None) /\ (NoDup (keys kw) -> NoDup (keys k)) /\ (args = [] -> e = []).
  Proof.
    induction ps as [|[n d] ps IH]; intros args kw p e k H.
    - destruct args; cbn in H; injection H as <- <- <-; (split; [constructor|]); (split; [intros n []|]); auto.
    - destruct args as [|a args]; cbn [bind_pos] in H.
      + destruct (lookup n kw) as [v|] eqn:E.
        * apply bind_ok in H as ([[r e'] k'] & HB & H). injection H as <- <- <-. destruct (IH _ _ _ _ _ HB) as (H1 & H2 & H3 & H4 & H5). split; [constructor; auto|]. split.
          { intros m [<-|Hm]; [apply H3, lookup_without_same|auto]. }
          split; [intros m Hm; apply H3, lookup_without; auto|]. split; [intros HN; apply H4, without_keys; auto|auto].
        * destruct d; [|discriminate]. apply bind_ok in H as ([[r e'] k'] & HB & H). injection H as <- <- <-. destruct (IH _ _ _ _ _ HB) as (H1 & H2 & H3 & H4 & H5). specialize (H5 eq_refl). subst.
          split; [constructor; auto|]. split; [intros m [<-|Hm]; auto|]. auto.
      + destruct (lookup n kw) as [v|] eqn:E; [discriminate|]. apply bind_ok in H as ([[r e'] k'] & HB & H). injection H as <- <- <-. destruct (IH _ _ _ _ _ HB) as (H1 & H2 & H3 & H4 & _).
        split; [constructor; auto|]. split; [intros m [<-|Hm]; auto|]. split; [auto|]. split; [auto|discriminate].
  Qed.
  Lemma lookup_app n kw kw' : lookup n kw = None -> lookup n (kw ++ kw') = lookup n kw'.
  Proof. induction kw as [|[k v] kw IH]; cbn; [auto|]. destruct (String.eqb n k); [discriminate|auto]. Qed.
  Lemma named_keys ps p n : In n (keys (named ps p)) -> In n (map fst ps).
  Proof.
    revert p. induction ps as [|[m d] ps IH]; intros [|[v|] p]; cbn; try tauto; [intros [<-|H]; eauto|eauto].
  Qed.
  Lemma after_none_keys ps p n : In n (keys (after_none ps p)) -> In n (map fst ps).
  Proof. revert p. induction ps as [|[m d] ps IH]; intros [|[v|] p]; cbn; try tauto; [eauto|]. intros H. apply named_keys in H. auto. Qed.
  Lemma bind_named ps : forall p rest, NoDup (map fst ps) -> valid ps p [] -> disjoint (map fst ps) rest -> bind_pos ps [] (named ps p ++ rest) = Ok (p, [], rest).
  Proof.
    induction ps as [|[n d] ps IH]; intros p rest HN HV HD; inversion HV as [|? ? v ? ? ? HV'|? ? ? HV']; subst; cbn [bind_pos named app lookup]; [auto| |]; inversion HN as [|? ? N1 N2]; subst.
    - rewrite String.eqb_refl. replace (without n ((n, v) :: named ps p0 ++ rest)) with (named ps p0 ++ rest).
      + rewrite IH; auto. intros m Hm. apply HD. right. auto.
      + cbn. rewrite String.eqb_refl. cbn. symmetry. apply without_none. rewrite lookup_app; [apply HD; left; auto|]. apply lookup_none. intros H. apply N1. eapply named_keys; eauto.
    - rewrite lookup_app; [|apply lookup_none; intros H; apply N1; eapply named_keys; eauto]. rewrite HD by (left; auto). rewrite IH; auto. intros m Hm. apply HD. right. auto.
  Qed.
  Lemma bind_again ps : forall p e rest, NoDup (map fst ps) -> valid ps p e -> disjoint (map fst ps) rest -> bind_pos ps (prefix_some p ++ e) (after_none ps p ++ rest) = Ok (p, e, rest).
  Proof.
    induction ps as [|[n d] ps IH]; intros p e rest HN HV HD; inversion HV as [|? ? v ? ? ? HV'|? ? ? HV']; subst; cbn [bind_pos prefix_some after_none app]; [auto| |]; inversion HN as [|? ? N1 N2]; subst.
    - rewrite lookup_app; [|apply lookup_none; intros H; apply N1; eapply after_none_keys; eauto]. rewrite HD by (left; auto). rewrite IH; auto. intros m Hm. apply HD. right. auto.
    - rewrite lookup_app; [|apply lookup_none; intros H; apply N1; eapply named_keys; eauto]. rewrite HD by (left; auto). rewrite bind_named; auto. intros m Hm. apply HD. right. auto.
  Qed.
  Lemma bind_perm ps : forall args kw kw' p e k, NoDup (keys kw) -> Permutation kw kw' -> bind_pos ps args kw = Ok (p, e, k) -> exists k', bind_pos ps args kw' = Ok (p, e, k') /\ Permutation k k'.
  Proof.
    induction ps as [|[n d] ps IH]; intros args kw kw' p e k HN HP H.
    - destruct args; cbn in *; injection H as <- <- <-; eauto.
    - destruct args as [|a args]; cbn [bind_pos] in *; rewrite <- (lookup_perm n kw kw' HN HP); destruct (lookup n kw) as [v|] eqn:E; try discriminate.
      + apply bind_ok in H as ([[r e'] k1] & HB & H). injection H as <- <- <-. destruct (IH _ _ _ _ _ _ (without_keys n _ HN) (without_perm n _ _ HP) HB) as (k' & -> & HP'). cbn. eauto.
      + destruct d; [|discriminate]. apply bind_ok in H as ([[r e'] k1] & HB & H). injection H as <- <- <-. destruct (IH _ _ _ _ _ _ HN HP HB) as (k' & -> & HP'). cbn. eauto.
      + apply bind_ok in H as ([[r e'] k1] & HB & H). injection H as <- <- <-. destruct (IH _ _ _ _ _ _ HN HP HB) as (k' & -> & HP'). cbn. eauto.
  Qed.
  Definition distinct (s : signature) : Prop := NoDup (map fst (pos s) ++ map fst (kwonly s)).
  Definition same_but_order (b b' : bound V) : Prop := b_pos b' = b_pos b /\ b_extra b' = b_extra b /\ b_kwo b' = b_kwo b /\ Permutation (b_kwx b) (b_kwx b').
  Lemma NoDup_app_both {X} (l r : list X) : NoDup (l ++ r) -> NoDup l /\ NoDup r /\ forall x, In x l -> In x r -> False.
  Proof.
    induction l as [|x l IH]; cbn; intros H; [split; [constructor|]; auto|]. inversion H as [|? ? H1 H2]; subst. destruct (IH H2) as (A & B & C). split; [constructor; auto; intros HI; apply H1, in_or_app; auto|].
    split; [auto|]. intros y [<-|Hy] HR; [apply H1, in_or_app; auto|eauto].
  Qed.
  Lemma NoDup_app_intro {X} (l r : list X) : NoDup l -> NoDup r -> (forall x, In x l -> In x r -> False) -> NoDup (l ++ r).
  Proof.
    induction l as [|x l IH]; cbn; intros A B C; [auto|]. inversion A as [|? ? H1 H2]; subst. constructor; [|apply IH; eauto]. intros H. apply in_app_or in H as [H|H]; [auto|eauto].
  Qed.
  Lemma named_nodup ps p : NoDup (map fst ps) -> NoDup (keys (named ps p)).
  Proof.
    revert p. induction ps as [|[m d] ps IH]; intros [|[v|] p] H; cbn in *; try constructor; inversion H as [|? ? H1 H2]; subst; auto. intros HI. apply H1. eapply named_keys; eauto.
  Qed.
  Lemma after_none_nodup ps p : NoDup (map fst ps) -> NoDup (keys (after_none ps p)).
  Proof. revert p. induction ps as [|[m d] ps IH]; intros [|[v|] p] H; cbn in *; try constructor; inversion H as [|? ? H1 H2]; subst; auto. apply named_nodup; auto. Qed.
  (** Binding again what was bound gives the same, whatever the order of the keywords. *)
  Lemma sig_bind_again s args kw b kw' : distinct s -> NoDup (keys kw) -> sig_bind s args kw = Ok b -> Permutation (bound_kwargs s b) kw' ->
    exists b', sig_bind s (bound_args b) kw' = Ok b' /\ same_but_order b b'.
  Proof.
    intros HD HN H HP. unfold sig_bind in *. apply bind_ok in H as ([[p e] k1] & H1 & H). apply bind_ok in H as ([[o e'] k2] & H2 & H).
    destruct (bind_pos_inv _ _ _ _ _ _ H1) as (V1 & D1 & S1 & N1 & _). destruct (bind_pos_inv _ _ _ _ _ _ H2) as (V2 & D2 & S2 & N2 & E2). specialize (E2 eq_refl). subst e'.
    destruct (negb (varargs s) && (0 <? length e)) eqn:C1; [discriminate|]. destruct (negb (varkw s) && (0 <? length k2)) eqn:C2; [discriminate|]. injection H as <-.
    unfold bound_kwargs, bound_args in *. cbn [b_pos b_extra b_kwo b_kwx] in *. apply NoDup_app_both in HD as (P1 & P2 & P3).
    assert (HR : disjoint (map fst (pos s)) (named (kwonly s) o ++ k2)).
    { intros n Hn. rewrite lookup_app; [apply S2, D1; auto|]. apply lookup_none. intros HI. apply named_keys in HI. eauto. }
    pose proof (bind_again _ _ _ _ P1 V1 HR) as B1. assert (ND : NoDup (keys (after_none (pos s) p ++ named (kwonly s) o ++ k2))).
    { unfold keys. rewrite map_app. apply NoDup_app_intro; [apply after_none_nodup; auto| |].
      - rewrite map_app. apply NoDup_app_intro; [apply named_nodup; auto|apply N2, N1; auto|]. intros n Hn HI. apply named_keys in Hn. apply (proj1 (lookup_none n k2)); auto.
      - intros n Hn HI. apply after_none_keys in Hn. apply (proj1 (lookup_none n (named (kwonly s) o ++ k2))); auto. }
    destruct (bind_perm _ _ _ _ _ _ _ ND HP B1) as (k1' & -> & HP1). cbn [bind].
    assert (ND2 : NoDup (keys (named (kwonly s) o ++ k2))) by (unfold keys in ND; rewrite map_app in ND; apply NoDup_app_both in ND as (_ & ND & _); auto).
    destruct (bind_perm _ _ _ _ _ _ _ ND2 HP1 (bind_named _ _ _ P2 V2 D2)) as (k2' & -> & HP2). cbn [bind]. rewrite C1, <- (Permutation_length HP2), C2. eexists. split; [reflexivity|]. repeat split; auto.
  Qed.
End Sig.

(** ** The wrapper *)
Lemma split_last_app {A} (l : list (tree A)) x : split_last A (l ++ [x]) = Ok (l, x).
Proof. induction l as [|a l IH]; [auto|]. cbn [app split_last]. rewrite IH. destruct l; auto. Qed.
Lemma list_eqb_eq {X} (f : X -> X -> bool) : (forall x y, f x y = true -> x = y) -> forall l r, list_eqb f l r = true -> l = r.
Proof. intros Hf. induction l as [|x l IH]; intros [|y r] H; try discriminate; auto. cbn in H. apply andb_true_iff in H as [H1 H2]. f_equal; auto. Qed.
Lemma list_eqb_refl {X} (f : X -> X -> bool) : (forall x, f x x = true) -> forall l, list_eqb f l l = true.
Proof. intros Hf. induction l as [|x l IH]; cbn; [auto|]. rewrite Hf, IH. auto. Qed.

Section Jit.
  Variable A : Type.
  Local Notation T := (tree A).
  Variable is_array : T -> bool.
  Variable pack : list T -> list (string * T) -> T.
  Variable unpack : T -> res (list T * list (string * T)).
  Variable sig : signature.
  Variable body : T -> bound T -> res T.
  (** The dictionary comes back, its keys possibly in another order. *)
  Definition packs : Prop := forall rest kw, exists kw', unpack (pack rest kw) = Ok (rest, kw') /\ Permutation kw kw'.
  Definition order_blind : Prop := forall f b b', same_but_order b b' -> body f b' = body f b.
  Hypothesis Hpack : packs.
  Hypothesis Hbody : order_blind.
  Hypothesis Hsig : distinct sig.

  Lemma hd_tl (l : list T) : hd TNone (l ++ [TNone]) :: tl (l ++ [TNone]) = l ++ [TNone].
  Proof. destruct l; auto. Qed.
  Lemma preprocess_ok f d1 dr args kw a b s : let '(df, sf) := hashable_partition f is_array in NoDup (keys kw) ->
    preprocess A is_array pack sig df sf d1 dr args kw = Ok (a, b, s) ->
    exists out, fun_wrapped A is_array unpack sig body a b s = out /\
      (o <- out ;; postprocess A o) = invoke A sig body f args kw.
  Proof.
    destruct (hashable_partition f is_array) as [df sf] eqn:EF. intros HN H. unfold preprocess in H. apply bind_ok in H as (bd & HB & H).
    destruct (hashable_partition (hd TNone (bound_args bd ++ [TNone])) is_array) as [dfirst sfirst] eqn:E1.
    destruct (hashable_partition (pack (tl (bound_args bd ++ [TNone])) (bound_kwargs sig bd)) is_array) as [drest srest] eqn:E2. injection H as <- <- <-.
    eexists. split; [reflexivity|]. unfold fun_wrapped. cbn [d_fun d_first d_rest].
    assert (M : forall (b : bool) (x : list T), merge (if b then Some x else None) (if b then None else Some x) = Ok x) by (intros [] x; auto). rewrite !M. cbn [bind].
    assert (R : forall t d s, hashable_partition t is_array = (d, s) -> hashable_combine d s = Ok t) by (intros t d s E; rewrite <- (hashable_roundtrip t is_array), E; auto).
    rewrite (R _ _ _ EF), (R _ _ _ E1). cbn [bind]. rewrite (R _ _ _ E2). cbn [bind]. destruct (Hpack (tl (bound_args bd ++ [TNone])) (bound_kwargs sig bd)) as (kw' & -> & HP). cbn [bind].
    rewrite hd_tl, split_last_app. cbn [bind is_none]. destruct (sig_bind_again _ _ _ _ _ Hsig HN HB HP) as (b' & HB' & HS). unfold invoke. rewrite HB', HB. cbn [bind]. rewrite (Hbody _ _ _ HS).
    destruct (body f bd) as [out|e]; [|auto]. cbn [bind]. destruct (eqx_partition no_leaf TNone out (Leaf (SCall is_array))) as [[l r]|e] eqn:EP.
    - cbn [bind]. unfold postprocess. cbn [fst snd]. apply (roundtrip_no_leaf _ _ _ _ EP).
    - exfalso. unfold eqx_partition, filter_tree in EP. cbn [tmap2 no_leaf make_filter_tree bind] in EP. rewrite !mask_then_map in EP. discriminate.
  Qed.
  Lemma preprocess_err f sf d1 dr args kw e : preprocess A is_array pack sig f sf d1 dr args kw = Err e -> sig_bind sig args kw = Err e.
  Proof.
    unfold preprocess. destruct (sig_bind sig args kw) as [b|e'] eqn:E; cbn [bind]; [|congruence]. destruct (hashable_partition _ _), (hashable_partition _ _). discriminate.
  Qed.

  Variable Ab : Type.
  Variable abs : T -> Ab.
  Variable ab_eqb : Ab -> Ab -> bool.
  Variable py_eqb : T -> T -> bool.
  Variable def_eqb : tree unit -> tree unit -> bool.
  Definition exact_eq : Prop := (forall x y, py_eqb x y = true -> x = y) /\ (forall x y, def_eqb x y = true -> x = y).
  Definition refl_eq : Prop := (forall x, py_eqb x x = true) /\ (forall x, def_eqb x x = true) /\ (forall x, ab_eqb x x = true).
  Lemma statics_eq s s' : exact_eq -> statics_eqb A py_eqb def_eqb s s' = true -> s = s'.
  Proof.
    intros [H1 H2]. destruct s as [[[a1 b1] [a2 b2]] [a3 b3]], s' as [[[c1 d1] [c2 d2]] [c3 d3]]. unfold statics_eqb, static_eqb. cbn [fst snd]. rewrite !andb_true_iff. intros [[[E1 F1] [E2 F2]] [E3 F3]].
    apply (list_eqb_eq _ H1) in E1, E2, E3. apply H2 in F1, F2, F3. congruence.
  Qed.
  Lemma statics_refl s : refl_eq -> statics_eqb A py_eqb def_eqb s s = true.
  Proof.
    intros (H1 & H2 & _). destruct s as [[[a1 b1] [a2 b2]] [a3 b3]]. unfold statics_eqb, static_eqb. cbn [fst snd]. rewrite !(list_eqb_refl _ H1), !H2. auto.
  Qed.
  Lemma abd_refl a : refl_eq -> abd_eqb Ab ab_eqb a a = true.
  Proof.
    intros (_ & _ & H). destruct a as [[[x|] [y|]] [z|]]; unfold abd_eqb, opt_eqb; rewrite ?(list_eqb_refl _ H); auto.
  Qed.
  Lemma jitted_ok c a b s r c' n : exact_eq -> jitted A is_array unpack sig body Ab abs ab_eqb py_eqb def_eqb c a b s = (r, c', n) -> r = fun_wrapped A is_array unpack sig body a b s.
  Proof.
    intros HE H. unfold jitted in H. destruct (find _ c) as [[[ea eb] s0]|] eqn:EF; [|congruence]. apply find_some in EF as [_ EF]. cbn in EF. apply andb_true_iff in EF as [_ EF]. apply statics_eq in EF; auto. congruence.
  Qed.
  Lemma call_result f donate w c args kw : filter_jit A is_array f donate = Ok w -> exact_eq -> NoDup (keys kw) ->
    o_result A Ab (call A is_array pack unpack sig body Ab abs ab_eqb py_eqb def_eqb w c args kw) = invoke A sig body f args kw.
  Proof.
    intros HW HE HN. unfold filter_jit in HW. apply bind_ok in HW as ([[q d1] dr] & _ & HW). pose proof (fun a b s => preprocess_ok f d1 dr args kw a b s) as HP.
    destruct (hashable_partition f is_array) as [df sf] eqn:EF. injection HW as <-. unfold call. cbn [w_dfun w_sfun w_first w_rest].
    destruct (preprocess A is_array pack sig df sf d1 dr args kw) as [[[a b] s]|e] eqn:EP.
    - destruct (jitted _ _ _ _ _ _ _ _ _ _ c a b s) as [[r c'] n] eqn:EJ. apply jitted_ok in EJ; [|auto]. cbn [o_result]. destruct (HP a b s HN eq_refl) as (out & E1 & E2). subst. auto.
    - cbn [o_result]. apply preprocess_err in EP. unfold invoke. rewrite EP. auto.
  Qed.

  (** *** Donation *)
  Definition arrays (t : T) : list T := List.filter is_array (leaves no_leaf t).
  Lemma somes_dynamic (ls : list T) : Forall is_Leaf ls -> somes A (map (fun x => if is_array x then x else TNone) ls) = List.filter is_array ls.
  Proof.
    induction 1 as [|x ls [a ->] _ IH]; [auto|]. cbn [map somes List.filter]. unfold somes in *. cbn [List.filter]. destruct (is_array (Leaf a)); cbn [is_none negb]; rewrite IH; auto.
  Qed.
  Lemma somes_part t d s : hashable_partition t is_array = (d, s) -> somes A d = arrays t.
  Proof. unfold hashable_partition. intros H. injection H as <- _. apply somes_dynamic, leaves_are_Leaf. Qed.
End Jit.
