(** C99: containers of named messages. *)
From Verif Require Export Container_Model Method_Props.
Local Open Scope list_scope.

Section Props.
  Context {V : Type}.
  Implicit Types (d : list (string * V)) (c : namespace V) (rest : list (namespace V)).

  (** The items of a class body: what does not have a magic name. *)
  Inductive items : list (string * V) -> list (string * V) -> Prop :=
  | it_nil : items [] []
  | it_magic k v d l : magic k -> items d l -> items ((k, v) :: d) l
  | it_item k v d l : ~ magic k -> items d l -> items ((k, v) :: d) ((k, v) :: l).

  Lemma magic_iff k : prefix "__" k && ends_with "__" k = true <-> magic k.
  Proof. unfold magic. rewrite andb_true_iff, prefix_spec, ends_spec. reflexivity. Qed.
  Lemma number_spec d l : items d l -> forall i, snd (number d i) = map snd l /\
    (forall k v, In (k, v) d -> magic k -> NoDup (map fst d) -> ns_get (fst (number d i)) k = Some (Keep v)) /\
    (forall j k v, nth_error l j = Some (k, v) -> NoDup (map fst d) -> ns_get (fst (number d i)) k = Some (Index (i + j))) /\
    (forall k, ns_get (fst (number d i)) k = None <-> ~ In k (map fst d)).
  Proof.
    induction 1 as [|k v d l Hk Hi IH|k v d l Hk Hi IH]; intros i.
    - repeat split; try contradiction; auto. intros [|j] k v; discriminate.
    - cbn [number]. rewrite (proj2 (magic_iff k) Hk). specialize (IH i). destruct (number d i) as [n r]. cbn [fst snd] in *.
      destruct IH as (H1 & H2 & H3 & H4). split; [exact H1|].
      assert (HIn : forall j k' v', nth_error l j = Some (k', v') -> In k' (map fst d)).
      { intros j k' v' Hj. apply nth_error_In in Hj. clear -Hi Hj. induction Hi; cbn in *; [contradiction|auto|].
        destruct Hj as [E|Hj]; [injection E as -> ->; auto|auto]. }
      split; [|split].
      + intros k' v' Hin Hm Hnd. cbn [ns_get map fst] in *. inversion Hnd as [|? ? Hn Hnd']; subst.
        destruct (String.eqb_spec k k') as [<-|N].
        * destruct Hin as [E|Hin]; [congruence|]. exfalso. apply Hn. apply (in_map fst) in Hin. exact Hin.
        * destruct Hin as [E|Hin]; [congruence|auto].
      + intros j k' v' Hj Hnd. cbn [ns_get map fst] in *. inversion Hnd as [|? ? Hn Hnd']; subst.
        destruct (String.eqb_spec k k') as [<-|N]; [|eauto]. exfalso. eauto.
      + intros k'. cbn [ns_get map fst]. destruct (String.eqb_spec k k') as [<-|N].
        * split; [discriminate|]. intros H. exfalso. apply H. left. reflexivity.
        * rewrite H4. split; intros H; [intros [E|E]; auto|]; intros E; apply H; right; exact E.
    - cbn [number]. assert (Hf : prefix "__" k && ends_with "__" k = false).
      { apply not_true_iff_false. rewrite magic_iff. exact Hk. }
      rewrite Hf. specialize (IH (S i)). destruct (number d (S i)) as [n r]. cbn [fst snd] in *.
      destruct IH as (H1 & H2 & H3 & H4). split; [cbn; congruence|].
      assert (HIn : forall j k' v', nth_error l j = Some (k', v') -> In k' (map fst d)).
      { intros j k' v' Hj. apply nth_error_In in Hj. clear -Hi Hj. induction Hi; cbn in *; [contradiction|auto|].
        destruct Hj as [E|Hj]; [injection E as -> ->; auto|auto]. }
      split; [|split].
      + intros k' v' Hin Hm Hnd. cbn [ns_get map fst] in *. inversion Hnd as [|? ? Hn Hnd']; subst.
        destruct (String.eqb_spec k k') as [<-|N]; [contradiction|].
        destruct Hin as [E|Hin]; [congruence|auto].
      + intros [|j] k' v' Hj Hnd; cbn [ns_get map fst nth_error] in *.
        * injection Hj as <- <-. rewrite String.eqb_refl. f_equal. f_equal. lia.
        * inversion Hnd as [|? ? Hn Hnd']; subst.
          destruct (String.eqb_spec k k') as [<-|N]; [exfalso; eauto|].
          rewrite (H3 j k' v' Hj Hnd'). f_equal. f_equal. lia.
      + intros k'. cbn [ns_get map fst]. destruct (String.eqb_spec k k') as [<-|N].
        * split; [discriminate|]. intros H. exfalso. apply H. left. reflexivity.
        * rewrite H4. split; intros H; [intros [E|E]; auto|]; intros E; apply H; right; exact E.
  Qed.
  Lemma items_exist d : exists l, items d l.
  Proof.
    induction d as [|[k v] d (l & IH)]; [exists []; constructor|].
    destruct (prefix "__" k && ends_with "__" k) eqn:E.
    - exists l. constructor; [apply magic_iff; exact E|exact IH].
    - exists ((k, v) :: l). constructor; [|exact IH]. intros H. apply magic_iff in H. congruence.
  Qed.
  Lemma ns_get_app n m k : ns_get (n ++ m) k = match @ns_get V n k with Some e => Some e | None => ns_get m k end.
  Proof. induction n as [|[k' e] n IH]; cbn; [reflexivity|]. destruct (String.eqb k' k); [reflexivity|exact IH]. Qed.
  Lemma has_reverse d : existsb (fun kv => String.eqb (fst kv) "reverse_lookup") d = true <-> In "reverse_lookup"%string (map fst d).
  Proof.
    rewrite existsb_exists. split.
    - intros ([k v] & H & E). apply String.eqb_eq in E. cbn in E. subst. apply (in_map fst) in H. exact H.
    - intros H. apply in_map_iff in H as ([k v] & E & H). exists (k, v). split; [exact H|]. apply String.eqb_eq. exact E.
  Qed.

  (** A class body is accepted unless it assigns to [reverse_lookup]. *)
  Theorem C99_creation : forall d,
    (In "reverse_lookup"%string (map fst d) /\ new_class d = Err AssertionError) \/
    (~ In "reverse_lookup"%string (map fst d) /\ exists c, new_class d = Ok c).
  Proof.
    intros d. unfold new_class. destruct (existsb _ d) eqn:E.
    - left. split; [apply has_reverse; exact E|reflexivity].
    - right. split; [intros H; apply has_reverse in H; congruence|]. destruct (number d 0) as [n l]. eauto.
  Qed.

  Lemma new_class_reverse d l c rest : items d l -> new_class d = Ok c -> reverse_lookup (c :: rest) = Ok (map snd l).
  Proof.
    intros Hi H. unfold new_class in H. destruct (existsb _ d) eqn:E; [discriminate|].
    destruct (number_spec d l Hi 0) as (H1 & _ & _ & H4). destruct (number d 0) as [n r]. cbn [fst snd] in *.
    injection H as <-. unfold reverse_lookup. cbn [class_attr]. rewrite ns_get_app.
    rewrite (proj2 (H4 _)); [cbn; congruence|]. intros HI. apply has_reverse in HI. congruence.
  Qed.

  (** Items of the class itself: the attribute is the item's number, and indexing with it gives the value back. Magic names keep their
      values. Whatever the base classes are. *)
  Theorem C99_own : forall d l c rest, NoDup (map fst d) -> items d l -> new_class d = Ok c ->
    (forall i k v, nth_error l i = Some (k, v) ->
       class_attr (c :: rest) k = Ok (Index i) /\ class_item (c :: rest) (Z.of_nat i) = Ok v) /\
    (forall k v, In (k, v) d -> magic k -> class_attr (c :: rest) k = Ok (Keep v)) /\
    class_len (c :: rest) = Ok (List.length l).
  Proof.
    intros d l c rest Hnd Hi H. pose proof (new_class_reverse d l c rest Hi H) as HR.
    unfold class_item, class_len. rewrite HR. cbn [bind rmap]. rewrite map_length. split; [|split; [|reflexivity]].
    - intros i k v Hk. split.
      + unfold new_class in H. destruct (existsb _ d) eqn:E; [discriminate|].
        destruct (number_spec d l Hi 0) as (_ & _ & H3 & _). destruct (number d 0) as [n r]. cbn [fst snd] in *.
        injection H as <-. cbn [class_attr]. rewrite ns_get_app, (H3 _ _ _ Hk Hnd). reflexivity.
      + unfold list_index. destruct (Z.ltb_spec (Z.of_nat i) 0); [lia|]. destruct (Z.ltb_spec (Z.of_nat i) 0); [lia|].
        rewrite Nat2Z.id, nth_error_map, Hk. reflexivity.
    - intros k v Hin Hm. unfold new_class in H. destruct (existsb _ d) eqn:E; [discriminate|].
      destruct (number_spec d l Hi 0) as (_ & H2 & _ & _). destruct (number d 0) as [n r]. cbn [fst snd] in *.
      injection H as <-. cbn [class_attr]. rewrite ns_get_app, (H2 _ _ Hin Hm Hnd). reflexivity.
  Qed.

  (** Indexing, exactly: numbers count from the start, negative ones from the end; all others raise [IndexError]. *)
  Theorem C99_index : forall d l c rest z, items d l -> new_class d = Ok c ->
    match class_item (c :: rest) z with
    | Ok v => exists i k, nth_error l i = Some (k, v) /\ (z = Z.of_nat i \/ z = Z.of_nat i - Z.of_nat (List.length l))%Z
    | Err e => e = IndexError /\ (z < - Z.of_nat (List.length l) \/ Z.of_nat (List.length l) <= z)%Z
    end.
  Proof.
    intros d l c rest z Hi H. pose proof (new_class_reverse d l c rest Hi H) as HR.
    unfold class_item. rewrite HR. cbn [bind]. unfold list_index. rewrite map_length.
    set (j := if (z <? 0)%Z then _ else _).
    assert (Hj : (j = z /\ 0 <= z \/ j = z + Z.of_nat (List.length l) /\ z < 0)%Z).
    { unfold j. destruct (Z.ltb_spec z 0); lia. }
    clearbody j. destruct (Z.ltb_spec j 0) as [H0|H0]; [split; [reflexivity|lia]|].
    rewrite nth_error_map. destruct (nth_error l (Z.to_nat j)) as [[k v]|] eqn:E; cbn [option_map].
    - exists (Z.to_nat j), k. split; [exact E|]. lia.
    - split; [reflexivity|]. apply nth_error_None in E. lia.
  Qed.

  (** Names only a base class has: the attribute is the number within the base class, but indexing the derived class with it looks
      among the items of the derived class only. *)
  Theorem C99_inherited : forall d l c d' l' c' rest i k v,
    NoDup (map fst d) -> items d l -> new_class d = Ok c -> items d' l' -> new_class d' = Ok c' ->
    nth_error l i = Some (k, v) -> ~ In k (map fst d') ->
    class_attr (c' :: c :: rest) k = Ok (Index i) /\
    class_item (c' :: c :: rest) (Z.of_nat i) = match nth_error l' i with Some (_, v') => Ok v' | None => Err IndexError end.
  Proof.
    intros d l c d' l' c' rest i k v Hnd Hi H Hi' H' Hk Hn.
    assert (Hkr : k <> "reverse_lookup"%string).
    { intros ->. destruct (C99_creation d) as [(_ & E)|(HN & _)]; [congruence|]. apply HN. apply nth_error_In in Hk.
      clear -Hi Hk. induction Hi; cbn in *; [contradiction|auto|]. destruct Hk as [E|Hk]; [injection E as -> ->; auto|auto]. }
    split.
    - change (class_attr (c' :: c :: rest) k) with (match ns_get c' k with Some e => Ok e | None => class_attr (c :: rest) k end).
      assert (HL : ns_get c' k = None).
      { unfold new_class in H'. destruct (existsb _ d'); [discriminate|].
        destruct (number_spec d' l' Hi' 0) as (_ & _ & _ & H4). destruct (number d' 0) as [n r]. cbn [fst snd] in *.
        injection H' as <-. rewrite ns_get_app, (proj2 (H4 k) Hn). cbn [ns_get].
        destruct (String.eqb_spec "reverse_lookup" k); [congruence|reflexivity]. }
      rewrite HL. exact (proj1 (proj1 (C99_own d l c rest Hnd Hi H) i k v Hk)).
    - unfold class_item. rewrite (new_class_reverse d' l' c' (c :: rest) Hi' H'). cbn [bind]. unfold list_index.
      destruct (Z.ltb_spec (Z.of_nat i) 0); [lia|]. destruct (Z.ltb_spec (Z.of_nat i) 0); [lia|].
      rewrite Nat2Z.id, nth_error_map. destruct (nth_error l' i) as [[k' v']|]; reflexivity.
  Qed.

  (** Attributes that do not exist, exactly: [AttributeError]. *)
  Theorem C99_unknown : forall ds cs k e, Forall2 (fun d c => new_class d = Ok c) ds cs ->
    class_attr cs k = Err e <->
    e = AttributeError /\ (forall d, In d ds -> ~ In k (map fst d)) /\ (k = "reverse_lookup"%string -> ds = []).
  Proof.
    intros ds cs k e H. induction H as [|d c ds cs H F IH].
    - cbn. split; [intros E; split; [congruence|]; split; [intros d []|auto]|intros (-> & _); reflexivity].
    - destruct (items_exist d) as (l & Hi). unfold new_class in H. destruct (existsb _ d) eqn:E; [discriminate|].
      destruct (number_spec d l Hi 0) as (_ & _ & _ & H4). destruct (number d 0) as [n r]. cbn [fst snd] in *.
      injection H as <-. cbn [class_attr]. rewrite ns_get_app. cbn [ns_get].
      destruct (ns_get n k) eqn:G.
      + split; [discriminate|]. intros (_ & H & _). exfalso. specialize (H d (or_introl eq_refl)). apply H4 in H. congruence.
      + apply H4 in G. destruct (String.eqb_spec "reverse_lookup" k) as [<-|N].
        * split; [discriminate|]. intros (_ & _ & H). discriminate (H eq_refl).
        * rewrite IH. split; intros (-> & H1 & H2); (split; [reflexivity|]); (split; [|congruence]).
          -- intros d' [<-|Hd]; [exact G|exact (H1 d' Hd)].
          -- intros d' Hd. apply H1. right. exact Hd.
  Qed.
End Props.
Print Assumptions C99_unknown.
Print Assumptions C99_creation.
Print Assumptions C99_own.
Print Assumptions C99_index.
Print Assumptions C99_inherited.

(** Instances are exactly: scalar integer arrays, Python integers and booleans, whether or not an item has that number, and what is
    an instance in the ordinary sense. *)
Theorem C99_instance : forall o, instancecheck o = true <->
  o = Array [] true \/ (exists i, o = PyInt i) \/ (exists b, o = PyBool b) \/ o = Other true.
Proof.
  intros o. split.
  - destruct o as [[|n s] i|i|b|p]; cbn; intros H; try discriminate; subst; eauto.
  - intros [->|[(i & ->)|[(b & ->)| -> ]]]; reflexivity.
Qed.
Print Assumptions C99_instance.

(** A class with two messages. *)
Definition ex_results : list (string * nat) := [("__module__", 7); ("successful", 100); ("_failed", 101)]%string.
Definition ex_class : namespace nat :=
  [("__module__", Keep 7); ("successful", Index 0); ("_failed", Index 1); ("reverse_lookup", Reverse [100; 101])]%string.
Example C99_ex : new_class ex_results = Ok ex_class /\ class_attr [ex_class] "_failed" = Ok (Index 1) /\ class_item [ex_class] 1 = Ok 101
  /\ class_item [ex_class] (-1) = Ok 101 /\ class_item [ex_class] 2 = Err IndexError /\ class_len [ex_class] = Ok 2.
Proof. repeat split; reflexivity. Qed.
Example C99_ex_items : items ex_results [("successful", 100); ("_failed", 101)]%string /\ NoDup (map fst ex_results).
Proof.
  split; [|repeat constructor; cbn; intuition discriminate].
  apply it_magic; [split; [exists "module__"%string|exists "__module"%string]; reflexivity|].
  apply it_item; [intros [(r & E) _]; destruct r; discriminate|].
  apply it_item; [intros [(r & E) _]; discriminate|]. constructor.
Qed.

(** [cls[cls.name]] is not the message for names of a base class: it raises [IndexError], or gives another message. *)
Definition ex_sub (l : list (string * nat)) : list (namespace nat) := match new_class l with Ok c => [c; ex_class] | Err _ => [] end.
Theorem C99_inherited_refuted :
  (class_attr (ex_sub []) "_failed" = Ok (Index 1) /\ class_item (ex_sub []) 1 = Err IndexError) /\
  (class_attr (ex_sub [("other", 200)]%string) "successful" = Ok (Index 0) /\ class_item (ex_sub [("other", 200)]%string) 0 = Ok 200).
Proof. repeat split; reflexivity. Qed.
Print Assumptions C99_inherited_refuted.
