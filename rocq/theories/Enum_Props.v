(** C22: enumerations. *)
From Verif Require Import Enum_Proofs2 Class_Proofs.

(** C22. The items of any enumeration have distinct names, and are numbered [0 .. n-1]; each number
    has a message. *)
Theorem C22_numbering : forall reg c e, ereach reg -> nth_error reg c = Some e ->
  let n := length (e_items e) in
  (forall k v w, In (k, v) (e_items e) -> In (k, w) (e_items e) -> v = w) /\
  (forall k k' v, In (k, v) (e_items e) -> In (k', v) (e_items e) -> k = k') /\
  (forall v, v < n <-> exists k, In (k, v) (e_items e)) /\ length (e_msgs e) = n.
Proof.
  intros reg c e HR Hc n. destruct (reach_ok reg HR) as (_ & HO & _). destruct (HO c e Hc) as (K1 & K2 & K3). cbn in K1, K2, K3.
  split; [intros k v w H1 H2; apply (In_aget _ _ _ K1) in H1; apply (In_aget _ _ _ K1) in H2; congruence|].
  split; [intros k k' v; apply snd_inj; auto|]. split; [|auto]. intros v. split.
  - intros Hv. assert (In v (map snd (e_items e))) as H by (rewrite K2; apply in_seq; lia).
    apply in_map_iff in H as ([k v'] & E & H). cbn in E. subst. eauto.
  - intros [k Hk]. eapply seq_snd_lt; eauto.
Qed.
Print Assumptions C22_numbering.

(** Promotion from an inherited enumeration gives the item with the same name. *)
Theorem C22_promote : forall reg c e b eb v, ereach reg -> nth_error reg c = Some e -> e_is e = true ->
  nth_error reg b = Some eb -> e_is eb = true -> In b (e_mro e) -> b <> c -> v < length (e_items eb) ->
  exists n w, In (n, v) (e_items eb) /\ In (n, w) (e_items e) /\ promote reg c (b, v) = Ok (c, w).
Proof. exact promote_ok. Qed.
Print Assumptions C22_promote.
(** In terms of [cls.name]. *)
Theorem C22_promote_by_name : forall reg c e b eb n it, ereach reg -> nth_error reg c = Some e -> e_is e = true ->
  nth_error reg b = Some eb -> e_is eb = true -> In b (e_mro e) -> b <> c ->
  get_item reg b n = Ok it -> promote reg c it = get_item reg c n.
Proof.
  intros reg c e b eb n it HR Hc He Hb Hbe Hin Hne Hg. unfold get_item in Hg. rewrite Hb in Hg.
  destruct (aget (e_items eb) n) as [v|] eqn:E; [|discriminate]. inv Hg. apply aget_In in E.
  destruct (C22_numbering reg b eb HR Hb) as (_ & N2 & N3 & _).
  destruct (promote_ok reg c e b eb v HR Hc He Hb Hbe Hin Hne) as (n' & w & H1 & H2 & ->); [apply N3; eauto|].
  assert (n' = n) by (eapply N2; eauto). subst n'. unfold get_item. rewrite Hc.
  destruct (reach_ok reg HR) as (_ & HO & _). destruct (HO c e Hc) as (K1 & _). cbn in K1.
  rewrite (In_aget _ _ _ K1 H2). auto.
Qed.
Print Assumptions C22_promote_by_name.
(** Items of unrelated enumerations, and of the enumeration itself, are rejected. *)
Theorem C22_promote_reject : forall reg c e b v, nth_error reg c = Some e ->
  ~ In b (e_mro e) \/ b = c -> promote reg c (b, v) = Err ValueError.
Proof. exact promote_err. Qed.
Print Assumptions C22_promote_reject.
(** Promotion in two steps is promotion in one step. *)
Theorem C22_promote_compose : forall reg d ed c e b eb v it, ereach reg ->
  nth_error reg d = Some ed -> e_is ed = true -> nth_error reg c = Some e -> e_is e = true ->
  nth_error reg b = Some eb -> e_is eb = true ->
  In b (e_mro e) -> b <> c -> In c (e_mro ed) -> c <> d -> In b (e_mro ed) -> v < length (e_items eb) ->
  promote reg c (b, v) = Ok it -> promote reg d it = promote reg d (b, v).
Proof.
  intros reg d ed c e b eb v it HR Hd Hde Hc He Hb Hbe H1 N1 H2 N2 H3 Hv HP.
  destruct (promote_ok reg c e b eb v HR Hc He Hb Hbe H1 N1 Hv) as (n & w & A1 & A2 & A3). rewrite A3 in HP. inv HP.
  destruct (C22_numbering reg c e HR Hc) as (_ & _ & M3 & _).
  destruct (C22_numbering reg c e HR Hc) as (_ & M2 & _ & _).
  destruct (C22_numbering reg b eb HR Hb) as (_ & B2 & _ & _).
  assert (Hbd : b <> d).
  { intros ->. destruct (reach_ok reg HR) as (_ & _ & HW). destruct (HW c e Hc) as [(_ & W2 & _) _].
    destruct (HW d ed Hd) as [(_ & W2' & _) _]. specialize (W2 d H1). specialize (W2' c H2). lia. }
  destruct (promote_ok reg d ed b eb v HR Hd Hde Hb Hbe H3 Hbd Hv) as (n1 & w1 & C1 & C2 & ->).
  destruct (promote_ok reg d ed c e w HR Hd Hde Hc He H2 N2) as (n2 & w2 & D1 & D2 & ->); [apply M3; eauto|].
  assert (n1 = n) by (eapply B2; eauto). assert (n2 = n) by (eapply M2; eauto). subst.
  rewrite (items_unique reg d ed n w1 w2 HR Hd); auto.
Qed.
Print Assumptions C22_promote_compose.

(** Where items and messages come from: own definitions after those of the bases, in the order in
    which the bases are visited; the last one wins. *)
Theorem C22_message_rule : forall reg bases ns e, ereach reg -> create_enum reg bases ns = Ok e ->
  forall k, match aget (e_items e) k with Some i => nth_error (e_msgs e) i | None => None end
            = last_msg (tables reg (distinct [] (visited_bases reg bases)) ++ ns) k.
Proof. intros reg bases ns e HR HC k. exact (enum_msg reg bases ns e HR HC k). Qed.
Print Assumptions C22_message_rule.
(** An own definition determines the message. *)
Theorem C22_own_message : forall reg bases ns e k m, ereach reg -> create_enum reg bases ns = Ok e ->
  NoDup (map fst ns) -> In (k, m) ns -> exists i, aget (e_items e) k = Some i /\ nth_error (e_msgs e) i = Some m.
Proof.
  intros reg bases ns e k m HR HC HN Hin. pose proof (enum_msg reg bases ns e HR HC k) as H. rewrite last_msg_app in H.
  assert (HL : last_msg ns k = Some m).
  { clear H. destruct (last_msg ns k) as [m'|] eqn:E.
    - apply last_msg_In in E. apply (In_aget _ _ _ HN) in E. apply (In_aget _ _ _ HN) in Hin. congruence.
    - apply last_msg_None in E. exfalso. apply E. apply in_map_iff. exists (k, m). auto. }
  rewrite HL in H. unfold msg_of in H. cbn [fst snd] in H. destruct (aget (e_items e) k) as [i|]; [eauto|discriminate].
Qed.
Print Assumptions C22_own_message.
(** [cls[item]] is the message of the item's number, for items of the class itself only. *)
Theorem C22_getitem : forall reg c e n i, ereach reg -> nth_error reg c = Some e -> aget (e_items e) n = Some i ->
  exists m, nth_error (e_msgs e) i = Some m /\ get_item reg c n = Ok (c, i) /\ get_message reg c (c, i) = Ok m.
Proof.
  intros reg c e n i HR Hc Hn. destruct (C22_numbering reg c e HR Hc) as (_ & _ & N3 & N4).
  assert (Hi : i < length (e_msgs e)) by (rewrite N4; apply N3; exists n; apply aget_In, Hn).
  destruct (nth_error (e_msgs e) i) as [m|] eqn:E; [|apply nth_error_None in E; lia].
  exists m. split; [reflexivity|]. unfold get_item, get_message. cbn [fst snd]. rewrite Hc, Hn, Nat.eqb_refl. cbn [negb].
  rewrite E. split; reflexivity.
Qed.
Theorem C22_getitem_other : forall reg c b v, b <> c -> get_message reg c (b, v) = Err ValueError.
Proof. intros reg c b v N. unfold get_message. cbn [fst]. apply Nat.eqb_neq in N. rewrite N. reflexivity. Qed.
Print Assumptions C22_getitem.
(** If all visited bases agree on the message of [k], it is inherited. *)
Theorem C22_same_message_partial : forall reg bases ns e k m b eb, ereach reg -> create_enum reg bases ns = Ok e ->
  ~ In k (map fst ns) -> In b (visited_bases reg bases) -> nth_error reg b = Some eb ->
  msg_of (e_items eb, e_msgs eb) k = Some m ->
  (forall b' eb' m', In b' (visited_bases reg bases) -> nth_error reg b' = Some eb' ->
     msg_of (e_items eb', e_msgs eb') k = Some m' -> m' = m) ->
  msg_of (e_items e, e_msgs e) k = Some m.
Proof.
  intros reg bases ns e k m b eb HR HC Hns Hb Heb Hm Hall. rewrite (enum_msg reg bases ns e HR HC k), last_msg_app.
  apply last_msg_None in Hns. rewrite Hns. destruct (reach_ok reg HR) as (_ & HO & _).
  destruct (last_msg (tables reg (distinct [] (visited_bases reg bases))) k) as [m'|] eqn:E.
  - apply last_msg_In in E. unfold tables in E. apply in_flat_map in E as (b' & Hb' & Hin).
    destruct (nth_error reg b') as [eb'|] eqn:Eb'; [|destruct Hin]. f_equal. apply (Hall b' eb' m'); auto.
    + eapply distinct_In; eauto.
    + apply table_msg; auto. apply (HO b'); auto.
  - apply last_msg_None in E. exfalso. apply E. apply in_map_iff. exists (k, m). split; auto.
    unfold tables. apply in_flat_map. exists b. rewrite Heb. split; [|apply table_msg; auto; apply (HO b); auto].
    assert (HD : forall bs s, In b bs -> mem b s = false -> In b (distinct s bs)).
    { clear. induction bs as [|x bs IH]; intros s H Hs; [destruct H|]. cbn. destruct H as [->|H].
      - rewrite Hs. left; auto.
      - destruct (mem x s) eqn:Ex; [apply IH; auto|]. destruct (Nat.eq_dec x b) as [->|N]; [left; auto|]. right. apply IH; auto.
        unfold mem in *. cbn. rewrite Hs. destruct (Nat.eqb_spec b x); [congruence|auto]. }
    apply HD; auto.
Qed.
Print Assumptions C22_same_message_partial.

(** Programs. *)
Definition estep := (list nat * option (list (name * message)))%type.  (* None: an ordinary class *)
Fixpoint edefine (l : list estep) (reg : ereg) : res ereg :=
  match l with
  | [] => Ok reg
  | (bs, Some ns) :: l' => e <- create_enum reg bs ns ;; edefine l' (reg ++ [e])
  | (bs, None) :: l' => e <- create_other reg bs ;; edefine l' (reg ++ [e])
  end.
Definition sensible (reg : ereg) (s : estep) : bool :=
  forallb (fun b => Nat.ltb b (length reg)) (fst s) &&
  match snd s with
  | Some _ => existsb (is_enum reg) (fst s)
  | None => negb (existsb (is_enum reg) (fst s)) && negb (Nat.eqb (length (fst s)) 0)
  end.
Fixpoint all_sensible (l : list estep) (reg : ereg) : bool :=
  match l with
  | [] => true
  | s :: l' => sensible reg s &&
      match edefine [s] reg with Ok reg' => all_sensible l' reg' | Err _ => true end
  end.
Lemma edefine_reach l : forall reg reg', ereach reg -> all_sensible l reg = true -> edefine l reg = Ok reg' -> ereach reg'.
Proof.
  induction l as [|[bs [ns|]] l IH]; intros reg reg' HR HS H; cbn [edefine all_sensible] in *.
  - inv H. auto.
  - apply bind_ok in H as (e & He & H). rewrite He in HS. cbn [bind edefine] in HS. apply andb_true_iff in HS as [H1 H2].
    unfold sensible in H1. cbn [fst snd] in H1. apply andb_true_iff in H1 as [H1 H3].
    eapply IH; [|exact H2|exact H]. eapply ereach_enum; eauto. intros b Hb. rewrite forallb_forall in H1. apply Nat.ltb_lt. auto.
  - apply bind_ok in H as (e & He & H). rewrite He in HS. cbn [bind edefine] in HS. apply andb_true_iff in HS as [H1 H2].
    unfold sensible in H1. cbn [fst snd] in H1. apply andb_true_iff in H1 as [H1 H3]. apply andb_true_iff in H3 as [H3 H4].
    apply negb_true_iff in H3. eapply IH; [|exact H2|exact H]. eapply ereach_other; eauto.
    + intros b Hb. rewrite forallb_forall in H1. apply Nat.ltb_lt. auto.
    + intros ->. discriminate.
Qed.

(** As stated ("with the same name and message") the property is false: a message that a subclass
    overrides comes back one subclass later. [class A: x = 10], [class B(A): x = 20],
    [class C(B): pass]: [C.x] says 10. *)
Theorem C22_message_refuted : exists reg, ereach reg /\
  (exists it it', get_item reg 3 2 = Ok it /\ get_message reg 3 it = Ok 20 /\
                  promote reg 4 it = Ok it' /\ get_message reg 4 it' = Ok 10).
Proof.
  pose (p := [([1], Some [(2, 10)]); ([2], Some [(2, 20)]); ([3], Some [])] : list estep).
  destruct (edefine p estart) as [reg|] eqn:E; [|vm_compute in E; discriminate].
  exists reg. split; [eapply (edefine_reach p estart); [constructor|vm_compute; reflexivity|exact E]|].
  vm_compute in E. inv E. exists (3, 0), (4, 0). repeat split.
Qed.
Print Assumptions C22_message_refuted.
(** Lines 82-85 refuse bases that are not enumerations, but a direct one goes unnoticed:
    [class C(A, Foo)] is accepted. *)
Theorem C22_mixin_refuted : exists reg e, ereach reg /\ nth_error reg 4 = Some e /\ e_is e = true /\
  In 3 (e_mro e) /\ is_enum reg 3 = false.
Proof.
  pose (p := [([1], Some [(2, 10)]); ([0], None); ([2; 3], Some [(3, 11)])] : list estep).
  destruct (edefine p estart) as [reg|] eqn:E; [|vm_compute in E; discriminate].
  exists reg. eexists. split; [eapply (edefine_reach p estart); [constructor|vm_compute; reflexivity|exact E]|].
  vm_compute in E. inv E. split; [reflexivity|]. split; [reflexivity|]. split; [cbn; tauto|reflexivity].
Qed.
Print Assumptions C22_mixin_refuted.

(** [where] *)
Theorem C22_where : forall c p a b, fst a = c -> fst b = c -> where_ c ([], true, p) a b = Ok (if p then a else b).
Proof.
  intros c p [c1 v1] [c2 v2] H1 H2. cbn in H1, H2. subst c2 c1. unfold where_. cbn. rewrite Nat.eqb_refl. cbn.
  destruct (Nat.eqb_spec v1 v2); [subst; destruct p; auto|destruct p; auto].
Qed.
Print Assumptions C22_where.
Theorem C22_where_reject : forall c shape isbool p a b,
  shape <> [] \/ isbool = false \/ fst a <> c \/ fst b <> c -> where_ c (shape, isbool, p) a b = Err ValueError.
Proof.
  intros c shape isbool p [ca va] [cb vb] H. unfold where_. cbn in *. destruct shape as [|s shape]; cbn; [|auto].
  destruct isbool; cbn; [|auto]. destruct (Nat.eqb_spec ca c); cbn; [|auto]. destruct (Nat.eqb_spec cb c); cbn; [|auto].
  exfalso. destruct H as [H|[H|[H|H]]]; congruence.
Qed.
Print Assumptions C22_where_reject.
(** Comparisons need the same enumeration, and then compare names. *)
Theorem C22_eq : forall reg c e n n' x y, ereach reg -> nth_error reg c = Some e ->
  get_item reg c n = Ok x -> get_item reg c n' = Ok y -> item_eq x y = Ok (Nat.eqb n n').
Proof.
  intros reg c e n n' x y HR Hc Hx Hy. unfold get_item in *. rewrite Hc in *.
  destruct (aget (e_items e) n) as [v|] eqn:E1; [|discriminate]. destruct (aget (e_items e) n') as [w|] eqn:E2; [|discriminate].
  inv Hx. inv Hy. unfold item_eq. cbn. rewrite Nat.eqb_refl. f_equal.
  destruct (Nat.eqb_spec n n') as [->|N]; [rewrite E1 in E2; inv E2; apply Nat.eqb_refl|].
  apply Nat.eqb_neq. intros ->. apply N. apply aget_In in E1, E2.
  destruct (C22_numbering reg c e HR Hc) as (_ & N2 & _). eapply N2; eauto.
Qed.
Print Assumptions C22_eq.
Theorem C22_eq_other : forall reg c c' n n' x y, c <> c' ->
  get_item reg c n = Ok x -> get_item reg c' n' = Ok y -> item_eq x y = Err ValueError.
Proof.
  intros reg c c' n n' x y N Hx Hy. unfold get_item in *.
  destruct (nth_error reg c) as [e|]; [|discriminate]. destruct (aget (e_items e) n) as [v|]; [|discriminate].
  destruct (nth_error reg c') as [e'|]; [|discriminate]. destruct (aget (e_items e') n') as [v'|]; [|discriminate].
  inv Hx. inv Hy. unfold item_eq. cbn [fst]. apply Nat.eqb_neq in N. rewrite N. reflexivity.
Qed.
Print Assumptions C22_eq_other.

(** A diamond: A(x, y), B(A)(z), C(A)(w), D(C, B)(v). *)
Definition ex_enum : list estep :=
  [([1], Some [(2, 10); (3, 11)]); ([2], Some [(4, 12)]); ([2], Some [(5, 13)]); ([4; 3], Some [(6, 14)])].
Example C22_ex : exists reg, edefine ex_enum estart = Ok reg /\ ereach reg /\
  map e_items reg = [[]; []; [(2, 0); (3, 1)]; [(2, 0); (3, 1); (4, 2)]; [(2, 0); (3, 1); (5, 2)]; [(2, 0); (3, 1); (5, 2); (4, 3); (6, 4)]] /\
  promote reg 5 (3, 2) = Ok (5, 3) /\ promote reg 3 (2, 1) = Ok (3, 1) /\ promote reg 5 (2, 1) = Ok (5, 1) /\
  promote reg 3 (4, 2) = Err ValueError /\ mro_e reg 5 = [5; 4; 3; 2; 1; 0].
Proof.
  destruct (edefine ex_enum estart) as [reg|] eqn:E; [|vm_compute in E; discriminate].
  exists reg. split; auto. split; [eapply (edefine_reach ex_enum estart); [constructor|vm_compute; reflexivity|exact E]|].
  vm_compute in E. inv E. repeat split.
Qed.
Example C22_ex_reject : create_enum estart [1] [(n_where, 3)] = Err ValueError /\
  edefine [([1], Some []); ([0], None); ([3], None); ([2; 4], Some [])] estart = Err ValueError.
Proof. split; reflexivity. Qed.
Print Assumptions C22_getitem_other.

(** The exceptions. *)
Theorem C22_reserved : forall reg bases ns, In n_promote (map fst ns) \/ In n_where (map fst ns) ->
  create_enum reg bases ns = Err ValueError.
Proof.
  intros reg bases ns H. unfold create_enum.
  assert (HX : forall k, In k (map fst ns) -> existsb (fun nm : name * message => Nat.eqb (fst nm) k) ns = true).
  { intros k Hk. apply in_map_iff in Hk as (nm & <- & Hin). apply existsb_exists. exists nm. split; [exact Hin|]. apply Nat.eqb_refl. }
  destruct H as [H|H].
  - match goal with |- context [existsb ?f ns] => replace (existsb f ns) with true by (symmetry; exact (HX _ H)) end. reflexivity.
  - match goal with |- (if ?b then _ else _) = _ => destruct b end; [reflexivity|].
    match goal with |- context [existsb ?f ns] => replace (existsb f ns) with true by (symmetry; exact (HX _ H)) end. reflexivity.
Qed.
Print Assumptions C22_reserved.
Theorem C22_missing : forall reg c e n, nth_error reg c = Some e -> ~ In n (map fst (e_items e)) -> get_item reg c n = Err AttributeError.
Proof.
  intros reg c e n Hc Hn. unfold get_item. rewrite Hc. destruct (aget (e_items e) n) as [v|] eqn:E; [|reflexivity].
  exfalso. apply Hn. apply aget_In in E. apply in_map_iff. exists (n, v). auto.
Qed.
Print Assumptions C22_missing.
Lemma removelast_In {X} (l : list X) x : In x (removelast l) -> In x l.
Proof. induction l as [|a l IH]; [intros []|]. cbn. destruct l; [intros []|]. intros [->|H]; [left; reflexivity|]. right. apply IH. exact H. Qed.
Lemma visited_lt reg bases b : ereach reg -> (forall b, In b bases -> b < length reg) -> In b (visited_bases reg bases) -> b < length reg.
Proof.
  intros HR Hb Hin. unfold visited_bases in Hin. apply in_flat_map in Hin as (a & Ha & Hin). do 2 apply removelast_In in Hin.
  unfold mro_e in Hin. destruct (nth_error reg a) as [e|] eqn:E; [|destruct Hin].
  destruct (reach_ok reg HR) as (_ & _ & HW). destruct (HW _ _ E) as ((_ & HB & _) & _). specialize (HB _ Hin). specialize (Hb _ Ha). lia.
Qed.
(** Creating an enumeration raises [ValueError] (a reserved name, or a base that is no enumeration), or
    [TypeError] (the bases have no common order). *)
Theorem C22_create_errors : forall reg bases ns x, ereach reg -> (forall b, In b bases -> b < length reg) ->
  create_enum reg bases ns = Err x ->
  x = ValueError /\ (In n_promote (map fst ns) \/ In n_where (map fst ns) \/ exists b, In b (visited_bases reg bases) /\ is_enum reg b = false) \/
  x = TypeError /\ forall mro, c3e reg (length reg) bases <> Ok mro.
Proof.
  intros reg bases ns x HR Hb H. unfold create_enum in H.
  match type of H with (if ?b then _ else _) = _ => destruct b eqn:E1 end.
  { left. injection H as <-. split; [reflexivity|]. left. apply existsb_exists in E1 as (nm & Hin & E). apply Nat.eqb_eq in E. rewrite <- E. apply in_map, Hin. }
  match type of H with (if ?b then _ else _) = _ => destruct b eqn:E2 end.
  { left. injection H as <-. split; [reflexivity|]. right. left. apply existsb_exists in E2 as (nm & Hin & E). apply Nat.eqb_eq in E. rewrite <- E. apply in_map, Hin. }
  destruct (c3e reg (length reg) bases) as [mro|y] eqn:E3; cbn [bind] in H.
  - left. destruct (store_bases reg (visited_bases reg bases) ([], []) []) as [[st offs]|y] eqn:E4; cbn [bind] in H.
    + destruct (store_own ns st). discriminate.
    + injection H as <-.
      assert (HX : forall bs st offs y, (forall b, In b bs -> b < length reg) -> store_bases reg bs st offs = Err y ->
                y = ValueError /\ exists b, In b bs /\ is_enum reg b = false).
      { clear. induction bs as [|b bs IH]; intros st offs y Hl H; cbn [store_bases] in H; [discriminate|].
        destruct (nth_error reg b) as [e|] eqn:Eb.
        - destruct (e_is e) eqn:Ee; cbn [negb] in H.
          + assert (HI : forall st offs, store_bases reg bs st offs = Err y -> y = ValueError /\ exists b', In b' (b :: bs) /\ is_enum reg b' = false).
            { intros st' offs' H'. destruct (IH _ _ _ (fun b' Hb' => Hl b' (or_intror Hb')) H') as [-> (b' & Hb' & He')]. split; [reflexivity|]. exists b'. split; [right; exact Hb'|exact He']. }
            destruct (aget offs b); [exact (HI _ _ H)|]. destruct (store_base _ _ _ _) as [st' o]. exact (HI _ _ H).
          + injection H as <-. split; [reflexivity|]. exists b. split; [left; reflexivity|]. unfold is_enum. rewrite Eb. exact Ee.
        - exfalso. apply nth_error_None in Eb. specialize (Hl b (or_introl eq_refl)). lia. }
      destruct (HX _ _ _ _ (fun b Hin => visited_lt reg bases b HR Hb Hin) E4) as [-> HE]. auto.
  - right. injection H as <-. split; [|congruence]. unfold c3e in E3. destruct (c3_merge _ _) as [l|y'] eqn:E; cbn in E3; [discriminate|].
    injection E3 as <-. exact (c3_merge_err _ _ _ (le_n _) E).
Qed.
Print Assumptions C22_create_errors.
(** [promote] fails with [ValueError], or with [KeyError] for a class of the MRO that was not visited. *)
Theorem C22_promote_errors : forall reg c e it x, nth_error reg c = Some e -> promote reg c it = Err x ->
  x = ValueError /\ (~ In (fst it) (e_mro e) \/ fst it = c) \/
  x = KeyError /\ In (fst it) (e_mro e) /\ fst it <> c /\ aget (e_offs e) (fst it) = None.
Proof.
  intros reg c e it x Hc H. unfold promote in H. rewrite Hc in H.
  destruct (mem (fst it) (e_mro e)) eqn:Em; cbn [negb orb] in H.
  - destruct (Nat.eqb_spec (fst it) c) as [E|E]; [left; split; [congruence|auto]|].
    destruct (aget (e_offs e) (fst it)) eqn:Eo; [discriminate|]. right. split; [congruence|]. split; [apply mem_In, Em|auto].
  - left. split; [congruence|]. left. intros HI. apply mem_In in HI. congruence.
Qed.
Print Assumptions C22_promote_errors.
(** An item of a mixin class that slipped in (see [C22_mixin_refuted]) would be met with [KeyError]. *)
Example ex_promote_mixin : match edefine [([1], Some [(2, 10)]); ([0], None); ([2; 3], Some [(3, 11)])] estart with
  | Ok reg => promote reg 4 (3, 0) = Err KeyError | Err _ => False end.
Proof. reflexivity. Qed.
