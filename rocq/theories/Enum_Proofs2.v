(** Reachable enumerations: numbering, promotion, messages. *)
From Verif Require Export Enum_Proofs.
From Verif Require Import Class_Proofs.

Lemma create_enum_inv reg bases ns e : create_enum reg bases ns = Ok e ->
  e_is e = true /\ c3e reg (length reg) bases = Ok (e_mro e) /\
  (~ In n_promote (map fst ns) /\ ~ In n_where (map fst ns)) /\
  exists st, store_bases reg (visited_bases reg bases) ([], []) [] = Ok (st, e_offs e) /\
             store_own ns st = (e_items e, e_msgs e).
Proof.
  unfold create_enum. intros H.
  destruct (existsb (fun nm => Nat.eqb (fst nm) n_promote) ns) eqn:E1; [discriminate|].
  destruct (existsb (fun nm => Nat.eqb (fst nm) n_where) ns) eqn:E2; [discriminate|].
  apply bind_ok in H as (mro & Hm & H). apply bind_ok in H as ([st offs] & Hs & H).
  destruct (store_own ns st) as [items msgs] eqn:Eo. inv H. cbn. split; auto. split; auto. split.
  - assert (HX : forall k, existsb (fun nm : name * message => Nat.eqb (fst nm) k) ns = false -> ~ In k (map fst ns)).
    { intros k Hk Hin. apply in_map_iff in Hin as (nm & <- & Hin).
      assert (existsb (fun nm0 : name * message => Nat.eqb (fst nm0) (fst nm)) ns = true); [|congruence].
      apply existsb_exists. exists nm. split; auto. apply Nat.eqb_refl. }
    split; apply HX; auto.
  - exists st. split; auto.
Qed.
Lemma ok_nil : ok_st ([], []).
Proof. split; [constructor|]. auto. Qed.

Definition reg_ok (reg : ereg) : Prop :=
  2 <= length reg /\ ok_reg reg /\ (forall i e, nth_error reg i = Some e -> wfe reg i e /\ offs_ok reg i e).

Lemma reach_ok reg : ereach reg -> reg_ok reg.
Proof.
  induction 1 as [|reg bases ns e HR (HL & HO & HW) HB HE HC|reg bases e HR (HL & HO & HW) HB HN HE HC].
  - split; [cbn; auto|]. split.
    + intros [|[|c]] e H; cbn in H; try (destruct c; discriminate); inv H; apply ok_nil.
    + intros [|[|c]] e H; cbn in H; try (destruct c; discriminate); inv H.
      * split.
        -- split; [eexists; reflexivity|]. split; [intros x [<-|[]]; auto|]. split; [repeat constructor; intros []|].
           split; [discriminate|]. split; [intros x [<-|[]]; discriminate|intros [H|[]]; discriminate].
        -- intros b [<-|[]] H. congruence.
      * split.
        -- split; [eexists; reflexivity|]. split; [intros x [<-|[<-|[]]]; auto|].
           split; [constructor; [intros [H|[]]; discriminate|repeat constructor; intros []]|].
           split; [left; auto|]. split; [intros x [<-|[<-|[]]]; [congruence|discriminate]|].
           intros _. exists [], [0]. cbn. auto.
        -- intros b [<-|[<-|[]]] H H1 H2; [congruence|discriminate].
  - pose proof (create_enum_inv _ _ _ _ HC) as (He & Hm & _ & st & Hs & Ho).
    destruct (store_bases_spec reg _ HO _ _ _ _ ok_nil Hs) as (A & B & C & D & F); [discriminate|].
    destruct (store_own_spec ns st A) as (A' & B' & _). rewrite Ho in A', B'. cbn [fst snd] in A', B'.
    assert (HW' : forall i e, nth_error reg i = Some e -> wfe reg i e) by (intros i x Hx; apply HW; auto).
    assert (Hwfe : wfe (reg ++ [e]) (length reg) e).
    { apply (step_wfe reg bases (e_mro e) e); auto. rewrite He, HE. tauto. }
    split; [rewrite app_length; lia|]. split.
    + intros c x Hx. apply nth_snoc in Hx as [[Hl Hx]|[-> ->]]; [apply (HO c); auto|exact A'].
    + intros i x Hx. apply nth_snoc in Hx as [[Hl Hx]|[-> ->]].
      * destruct (HW i x Hx) as [W O]. split; [apply wfe_app; auto|apply offs_app; auto].
      * split; auto. intros b Hb Hne1 Hne2 Hbe _.
        destruct (step_shape reg bases (e_mro e) e HW' HB Hm eq_refl) as (l & El & _ & HI & _).
        rewrite El in Hb. destruct Hb as [Hb|Hb]; [congruence|]. destruct (HI b Hb) as (x & Hxb & Hbx).
        destruct (mro_e_wf reg bases HW' HB x Hxb) as (ex & Ex & Em & _ & W2 & W3 & _ & W5 & W6).
        rewrite Em in Hbx. specialize (W2 b Hbx). specialize (HB x Hxb).
        rewrite is_enum_app in Hbe by lia. specialize (W5 b Hbx Hbe Hne2).
        assert (HV : In b (visited_bases reg bases)).
        { unfold visited_bases. apply in_flat_map. exists x. split; auto. rewrite Em.
          eapply removelast2_In; eauto. apply W6. apply before_In in W5. tauto. }
        specialize (D b (or_introl HV)). destruct (aget (e_offs e) b) as [o|] eqn:Eo; [|congruence].
        exists o. split; auto. destruct (good_ext _ _ _ _ _ B' (C b o Eo)) as (eb & Eb & Hr). exists eb. split; auto.
        rewrite nth_error_app1; [auto|lia].
  - unfold create_other in HC. apply bind_ok in HC as (mro & Hm & HC). inv HC.
    assert (HW' : forall i e, nth_error reg i = Some e -> wfe reg i e) by (intros i x Hx; apply HW; auto).
    set (e := {| e_is := false; e_mro := mro; e_items := []; e_msgs := []; e_offs := [] |}) in *.
    assert (Hwfe : wfe (reg ++ [e]) (length reg) e).
    { apply (step_wfe reg bases mro e); auto. rewrite HE. cbn. split; discriminate. }
    split; [rewrite app_length; lia|]. split.
    + intros c x Hx. apply nth_snoc in Hx as [[Hl Hx]|[-> ->]]; [apply (HO c); auto|apply ok_nil].
    + intros i x Hx. apply nth_snoc in Hx as [[Hl Hx]|[-> ->]].
      * destruct (HW i x Hx) as [W O]. split; [apply wfe_app; auto|apply offs_app; auto].
      * split; auto. intros b _ _ _ _ H. discriminate.
Qed.

(** ** Promotion *)
Lemma promote_ok reg c e b eb v : ereach reg -> nth_error reg c = Some e -> e_is e = true ->
  nth_error reg b = Some eb -> e_is eb = true -> In b (e_mro e) -> b <> c -> v < length (e_items eb) ->
  exists n w, In (n, v) (e_items eb) /\ In (n, w) (e_items e) /\ promote reg c (b, v) = Ok (c, w).
Proof.
  intros HR Hc He Hb Hbe Hin Hne Hv. destruct (reach_ok reg HR) as (HL & HO & HW). destruct (HW c e Hc) as [W O].
  destruct (HO b eb Hb) as (K1 & K2 & K3). cbn in K1, K2, K3.
  assert (HI : exists n, In (n, v) (e_items eb)).
  { assert (In v (map snd (e_items eb))) as H by (rewrite K2; apply in_seq; lia). apply in_map_iff in H as ([n v'] & E & H). cbn in E. subst. eauto. }
  destruct HI as [n Hn].
  assert (Hb1 : b <> 1).
  { intros ->. assert (nth_error reg 1 = Some base_enum) as H1.
    { clear - HR. induction HR; auto; rewrite nth_error_app1; auto; apply nth_error_Some; congruence. }
    rewrite H1 in Hb. inv Hb. destruct Hn. }
  assert (Hbe' : is_enum reg b = true) by (unfold is_enum; rewrite Hb; auto).
  destruct (O b Hin Hne Hb1 Hbe' He) as (o & Ho & eb' & Eb' & Hlen & Hgood). rewrite Hb in Eb'. inv Eb'.
  destruct (Hgood n v Hn) as (w & Hw & Hwn). exists n, w. split; auto. split; auto.
  unfold promote. rewrite Hc. cbn [fst snd]. assert (mem b (e_mro e) = true) as -> by (apply mem_In; auto).
  destruct (Nat.eqb_spec b c); [congruence|]. cbn [negb orb]. rewrite Ho. f_equal. f_equal.
  replace (Nat.min v (length o - 1)) with v by lia. apply nth_error_nth with (d := 0) in Hw. auto.
Qed.
Lemma promote_err reg c e b v : nth_error reg c = Some e -> ~ In b (e_mro e) \/ b = c -> promote reg c (b, v) = Err ValueError.
Proof.
  intros Hc H. unfold promote. rewrite Hc. cbn [fst]. destruct (mem b (e_mro e)) eqn:E; cbn; auto.
  destruct (Nat.eqb_spec b c); auto. apply mem_In in E. tauto.
Qed.
Lemma items_unique reg c e n v w : ereach reg -> nth_error reg c = Some e -> In (n, v) (e_items e) -> In (n, w) (e_items e) -> v = w.
Proof.
  intros HR Hc H1 H2. destruct (reach_ok reg HR) as (_ & HO & _). destruct (HO c e Hc) as (K1 & _). cbn in K1.
  apply (In_aget _ _ _ K1) in H1. apply (In_aget _ _ _ K1) in H2. congruence.
Qed.

(** ** Messages *)
Definition msg_of (st : list (name * nat) * list message) (n : name) : option message :=
  match aget (fst st) n with Some i => nth_error (snd st) i | None => None end.
Lemma store_msg st n m st' j : ok_st st -> store st (n, m) = (st', j) -> forall k,
  msg_of st' k = if Nat.eqb n k then Some m else msg_of st k.
Proof.
  destruct st as [items msgs]. intros (H1 & H2 & H3) H k. cbn in *. unfold msg_of.
  destruct (aget items n) as [i|] eqn:E; inv H; cbn.
  - destruct (Nat.eqb_spec n k).
    + subst k. rewrite E. apply set_nth_same. apply aget_In in E. rewrite H3. eapply seq_snd_lt; eauto.
    + destruct (aget items k) as [i'|] eqn:E'; auto. apply set_nth_other. intros ->. apply aget_In in E, E'.
      apply n0. eapply snd_inj; eauto.
  - rewrite aget_app. destruct (Nat.eqb_spec n k).
    + subst k. rewrite E. cbn. rewrite Nat.eqb_refl, nth_error_app2, Nat.sub_diag by auto. auto.
    + destruct (aget items k) as [i'|] eqn:E'.
      * apply nth_error_app1. apply aget_In in E'. rewrite H3. eapply seq_snd_lt; eauto.
      * cbn. destruct (Nat.eqb_spec n k); congruence.
Qed.
(** The last entry for [k]. *)
Fixpoint last_msg (l : list (name * message)) (k : name) : option message :=
  match l with
  | [] => None
  | (n, m) :: l' => match last_msg l' k with Some m' => Some m' | None => if Nat.eqb n k then Some m else None end
  end.
Lemma last_msg_app l l' k : last_msg (l ++ l') k = match last_msg l' k with Some m => Some m | None => last_msg l k end.
Proof. induction l as [|[n m] l IH]; cbn; [destruct (last_msg l' k); auto|]. rewrite IH. destruct (last_msg l' k); auto. Qed.
Lemma store_own_msg l : forall st, ok_st st -> forall k,
  msg_of (store_own l st) k = match last_msg l k with Some m => Some m | None => msg_of st k end.
Proof.
  induction l as [|[n m] l IH]; intros st HO k; cbn [store_own last_msg]; auto.
  destruct (store st (n, m)) as [st1 j] eqn:E. destruct (store_ok _ _ _ _ _ HO E) as (A & _ & _). cbn [fst].
  rewrite IH by auto. rewrite (store_msg _ _ _ _ _ HO E). destruct (last_msg l k); auto. destruct (Nat.eqb n k); auto.
Qed.
Lemma store_own_app l l' st : store_own (l ++ l') st = store_own l' (store_own l st).
Proof. revert st. induction l as [|nm l IH]; intros st; cbn; auto. Qed.
(** The items of an enumeration with their messages. *)
Definition table (e : enum) : list (name * message) := map (fun ni => (fst ni, nth (snd ni) (e_msgs e) 0)) (e_items e).
Lemma store_base_own bm todo : forall st offs, fst (store_base bm todo st offs) = store_own (map (fun ni => (fst ni, nth (snd ni) bm 0)) todo) st.
Proof.
  induction todo as [|[n i] todo IH]; intros st offs; cbn [store_base map store_own]; auto.
  destruct (store st (n, nth i bm 0)) as [st1 j] eqn:E. cbn [fst snd]. rewrite IH, E. auto.
Qed.
(** The bases in the order in which they are visited, each once. *)
Fixpoint distinct (seen bs : list nat) : list nat :=
  match bs with
  | [] => []
  | b :: bs' => if mem b seen then distinct seen bs' else b :: distinct (b :: seen) bs'
  end.
Definition tables (reg : ereg) (bs : list nat) : list (name * message) :=
  flat_map (fun b => match nth_error reg b with Some e => table e | None => [] end) bs.
Lemma distinct_ext bs : forall s s', (forall x, mem x s = mem x s') -> distinct s bs = distinct s' bs.
Proof.
  induction bs as [|b bs IH]; intros s s' H; cbn; auto. rewrite H. destruct (mem b s'); auto. f_equal. apply IH.
  intros x. unfold mem in *. cbn. rewrite H. auto.
Qed.
Lemma store_bases_own reg bs : forall st offs st' offs', store_bases reg bs st offs = Ok (st', offs') ->
  st' = store_own (tables reg (distinct (map fst offs) bs)) st.
Proof.
  induction bs as [|b bs IH]; intros st offs st' offs' H; cbn [store_bases distinct] in *.
  - inv H. auto.
  - destruct (nth_error reg b) as [e|] eqn:Eb; [|discriminate]. destruct (negb (e_is e)); [discriminate|].
    destruct (aget offs b) as [o|] eqn:Eo.
    + assert (mem b (map fst offs) = true) as ->.
      { apply mem_In. apply aget_In in Eo. apply in_map_iff. exists (b, o). auto. }
      eauto.
    + assert (mem b (map fst offs) = false) as ->.
      { apply aget_None in Eo. destruct (mem b (map fst offs)) eqn:Em; auto. apply mem_In in Em. tauto. }
      destruct (store_base _ _ _ _) as [st1 o1] eqn:E1. apply IH in H. rewrite H. unfold tables. cbn [flat_map]. rewrite Eb.
      rewrite store_own_app. pose proof (store_base_own (e_msgs e) (e_items e) st (repeat 0 (length (e_items e)))) as HS.
      rewrite E1 in HS. cbn [fst] in HS. fold (table e) in HS. rewrite <- HS. f_equal. f_equal.
      apply distinct_ext. intros x. rewrite map_app. unfold mem. rewrite existsb_app. cbn. rewrite orb_false_r. apply orb_comm.
Qed.
Lemma enum_msg reg bases ns e : ereach reg -> create_enum reg bases ns = Ok e -> forall k,
  msg_of (e_items e, e_msgs e) k = last_msg (tables reg (distinct [] (visited_bases reg bases)) ++ ns) k.
Proof.
  intros HR HC k. destruct (create_enum_inv _ _ _ _ HC) as (_ & _ & _ & st & Hs & Ho).
  apply store_bases_own in Hs. cbn [map] in Hs. subst st. rewrite <- store_own_app in Ho. rewrite <- Ho.
  rewrite store_own_msg by apply ok_nil. destruct (last_msg _ k); auto.
Qed.
Lemma last_msg_In l k m : last_msg l k = Some m -> In (k, m) l.
Proof.
  induction l as [|[n m'] l IH]; cbn; [discriminate|]. destruct (last_msg l k); [intros H; inv H; auto|].
  destruct (Nat.eqb_spec n k); [intros H; inv H; auto|discriminate].
Qed.
Lemma last_msg_None l k : last_msg l k = None <-> ~ In k (map fst l).
Proof.
  induction l as [|[n m'] l IH]; cbn; [tauto|]. destruct (last_msg l k) as [m|].
  - split; [discriminate|]. intros H. assert (Some m = None); [apply IH; tauto|discriminate].
  - destruct (Nat.eqb_spec n k); [split; [discriminate|tauto]|]. tauto.
Qed.
Lemma table_msg e n m : ok_st (e_items e, e_msgs e) -> (In (n, m) (table e) <-> msg_of (e_items e, e_msgs e) n = Some m).
Proof.
  intros (K1 & K2 & K3). cbn in K1, K2, K3. unfold table, msg_of. cbn [fst snd]. rewrite in_map_iff. split.
  - intros ([n' i] & E & Hin). cbn in E. injection E as <- <-. rewrite (In_aget _ _ _ K1 Hin).
    apply nth_error_nth'. rewrite K3. eapply seq_snd_lt; eauto.
  - destruct (aget (e_items e) n) as [i|] eqn:E; [|discriminate]. intros H. exists (n, i). split; [|apply aget_In; auto].
    cbn. f_equal. apply nth_error_nth. auto.
Qed.
Lemma distinct_In bs : forall s x, In x (distinct s bs) -> In x bs.
Proof.
  induction bs as [|b bs IH]; intros s x; cbn; auto. destruct (mem b s); [eauto|]. intros [->|H]; eauto.
Qed.
