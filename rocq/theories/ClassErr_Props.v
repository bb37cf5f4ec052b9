(** C14 and C15: the exceptions of class creation and instantiation. *)
From Verif Require Import Class_Proofs Enum_Proofs.
From Verif Require Export ClassAbs_Props.

Lemma c3_err reg self bases e : c3 reg self bases = Err e -> e = TypeError.
Proof.
  unfold c3. destruct (c3_merge _ _) as [l|e'] eqn:E; cbn; [discriminate|]. intros H. injection H as <-.
  apply (c3_merge_err _ _ _ (le_n _) E).
Qed.
Lemma scan_mro_kind ds e : scan_mro ds = Err e -> e = TypeError \/ e = NotImplementedError /\ exists d n, In d ds /\ In (n, StrAbs) (d_ann d).
Proof.
  assert (HA : forall dict anns av acv e', scan_ann dict anns av acv = Err e' ->
            e' = TypeError \/ e' = NotImplementedError /\ exists n, In (n, StrAbs) anns).
  { intros dict anns. induction anns as [|[n a] anns IHa]; intros av acv e' H; cbn [scan_ann] in H; [discriminate|].
    assert (HX : forall av acv, scan_ann dict anns av acv = Err e' ->
              e' = TypeError \/ e' = NotImplementedError /\ exists m, In (m, StrAbs) ((n, a) :: anns)).
    { intros av' acv' H'. destruct (IHa _ _ _ H') as [->|[-> (m & Hm)]]; [auto|]. right. split; [reflexivity|]. exists m. right. exact Hm. }
    destruct a; cbn [process_annotation bind] in H; try (exact (HX _ _ H)).
    - destruct (aget dict n); [injection H as <-; auto|exact (HX _ _ H)].
    - destruct (aget dict n); [injection H as <-; auto|exact (HX _ _ H)].
    - injection H as <-. auto.
    - injection H as <-. right. split; [reflexivity|]. exists n. left. reflexivity. }
  induction ds as [|d ds IH]; cbn [scan_mro]; [discriminate|].
  destruct (scan_mro ds) as [[av acv]|e'] eqn:E; cbn [bind]; intros H.
  - unfold scan_class in H. destruct (scan_ann (d_dict d) (d_ann d) av acv) as [[? ?]|e'] eqn:Es; cbn in H; [discriminate|].
    injection H as <-. destruct (HA _ _ _ _ _ Es) as [->|[-> (n & Hn)]]; [auto|]. right. split; [reflexivity|]. exists d, n. split; [left; reflexivity|exact Hn].
  - injection H as <-. destruct (IH eq_refl) as [->|[-> (d' & n & Hd & Hn)]]; [auto|]. right. split; [reflexivity|]. exists d', n. split; [right; exact Hd|exact Hn].
Qed.
Lemma find_dc_init_ok reg l : (forall x, In x l -> exists c, nth_error reg x = Some c) ->
  (exists x c, In x l /\ nth_error reg x = Some c /\ c_kind c = KModule) -> exists b, find_dc_init reg l = Ok b.
Proof.
  induction l as [|y l IH]; intros HE (x & c & Hx & Hc & Hk); [destruct Hx|]. cbn [find_dc_init].
  destruct (HE y (or_introl eq_refl)) as [cy Hy]. rewrite Hy.
  assert (HS : c_kind cy <> KModule -> exists b, find_dc_init reg l = Ok b).
  { intros Hn. apply IH; [intros z Hz; apply HE; right; exact Hz|]. exists x, c. split; [|auto].
    destruct Hx as [->|Hx]; [|exact Hx]. exfalso. congruence. }
  destruct (c_kind cy) eqn:K; [eauto| |]; (destruct (c_dc_init cy); [apply HS; discriminate|eauto]).
Qed.
Lemma mapM_err_In {A B} (f : A -> res B) l e : mapM f l = Err e -> exists x, In x l /\ f x = Err e.
Proof.
  induction l as [|a l IH]; cbn; [discriminate|]. destruct (f a) as [b|e'] eqn:E; cbn.
  - destruct (mapM f l) as [bs|e'']; cbn; [discriminate|]. intros H. injection H as <-. destruct (IH eq_refl) as (x & Hx & Hf). eauto.
  - intros H. injection H as <-. eauto.
Qed.

Section Errors.
  Variable magic : name -> bool.

  (** A Module is never the last class of its own MRO. *)
  Lemma module_tail reg : reachable magic reg -> forall b cb, nth_error reg b = Some cb -> c_kind cb = KModule -> exists y, before (c_mro cb) b y.
  Proof.
    induction 1 as [|reg d c HR IH Hb Hm Hc|reg sp d c HR IH Hb Hm Hc]; intros b cb Hi Hk.
    - destruct b as [|[|b]]; cbn in Hi; [injection Hi as <-; discriminate| |destruct b; discriminate].
      injection Hi as <-. exists 0, [], [0]. split; [reflexivity|left; reflexivity].
    - destruct (reach_split magic reg c b) as [E|E]; [rewrite E in Hi; exact (IH _ _ Hi Hk)|].
      subst b. rewrite nth_error_app2, Nat.sub_diag in Hi by auto. cbn in Hi. injection Hi as <-.
      apply create_module_inv in Hc as (_ & _ & Hc3 & _). apply existsb_exists in Hm as (b & Hin & _). exists b.
      unfold c3 in Hc3. destruct (c3_merge _ _) as [l|] eqn:El; [|discriminate]. cbn in Hc3. injection Hc3 as Hc3. rewrite <- Hc3.
      exists [], l. split; [reflexivity|]. apply (c3_merge_complete _ _ _ El (d_bases d)); [|exact Hin]. apply in_app_iff. right. left. reflexivity.
    - destruct (reach_split magic reg c b) as [E|E]; [rewrite E in Hi; exact (IH _ _ Hi Hk)|].
      subst b. rewrite nth_error_app2, Nat.sub_diag in Hi by auto. cbn in Hi. injection Hi as <-.
      unfold create_plain in Hc. apply bind_ok in Hc as (mro & _ & Hc). injection Hc as <-. cbn in Hk. destruct sp; discriminate.
  Qed.

  (** A class statement with a Module among its bases can only raise [TypeError], or, if a class of the
      MRO has a string annotation that names [AbstractVar] or [AbstractClassVar], [NotImplementedError]. *)
  Theorem C15_errors reg d e : reachable magic reg -> (forall b, In b (d_bases d) -> b < length reg) ->
    (exists b cb, In b (d_bases d) /\ nth_error reg b = Some cb /\ c_kind cb = KModule) ->
    create_module magic reg d = Err e ->
    e = TypeError \/
    e = NotImplementedError /\ exists k n, (k = d \/ exists j cj, nth_error reg j = Some cj /\ k = c_def cj) /\ In (n, StrAbs) (d_ann k).
  Proof.
    intros HR Hb (b & cb & Hin & Hcb & Hk) H. unfold create_module in H.
    destruct (c3 reg (length reg) (d_bases d)) as [mro|e'] eqn:E3; cbn [bind] in H; [|injection H as <-; left; exact (c3_err _ _ _ _ E3)].
    destruct (scan_mro (d :: defs_along reg (tl mro))) as [[av acv]|e'] eqn:ES; cbn [bind] in H.
    2:{ injection H as <-. destruct (scan_mro_kind _ _ ES) as [->|[-> (k & n & Hk' & Hn)]]; [auto|]. right. split; [reflexivity|].
        exists k, n. split; [|exact Hn]. destruct Hk' as [<-|Hk']; [left; reflexivity|]. right.
        unfold defs_along in Hk'. apply in_flat_map in Hk' as (x & _ & Hx). destruct (nth_error reg x) as [cx|] eqn:Ex; [|destruct Hx].
        destruct Hx as [<-|[]]. exists x, cx. auto. }
    left.
    assert (HD : exists dc, (if d_has_init d then Ok false else find_dc_init reg (removelast (tl mro))) = Ok dc).
    { destruct (d_has_init d); [eauto|]. apply find_dc_init_ok.
      - intros x Hx. assert (Hx' : In x (tl mro)).
        { clear -Hx. revert Hx. generalize (tl mro). intros l. induction l as [|a l IH]; [intros []|]. cbn. destruct l; [intros []|].
          intros [->|Hx]; [auto|]. right. apply IH. exact Hx. }
        assert (HL : x < length reg).
        { destruct (c3_tl _ _ _ _ _ E3 Hx') as [Hx2|(b' & Hb' & Hx2)]; [auto|]. pose proof (Hb _ Hb') as Hlt. unfold mro_of in Hx2.
          destruct (nth_error reg b') as [c'|] eqn:Eb'; [|destruct Hx2].
          destruct (reach_wf magic reg HR) as [_ HW]. destruct (HW _ _ Eb') as (_ & HW2 & _). specialize (HW2 _ Hx2). lia. }
        destruct (nth_error reg x) as [cx|] eqn:Ex; [eauto|]. apply nth_error_None in Ex. lia.
      - exists b, cb. split; [|auto]. destruct (module_tail reg HR b cb Hcb Hk) as [y Hy].
        unfold c3 in E3. destruct (c3_merge _ _) as [l|] eqn:El; [|discriminate]. cbn in E3. injection E3 as <-. cbn [tl].
        assert (HB : before l b y).
        { apply (c3_merge_before _ _ _ El (mro_of reg b)).
          - apply in_app_iff. left. apply in_map. exact Hin.
          - unfold mro_of. rewrite Hcb. exact Hy. }
        destruct HB as (l1 & l2 & -> & Hy2). clear -Hy2. rewrite removelast_app by discriminate. apply in_app_iff. right.
        destruct l2; [destruct Hy2|]. left. reflexivity. }
    destruct HD as [dc HD]. rewrite HD in H. cbn [bind] in H.
    destruct (d_strict d) as [cfg|]; [|discriminate].
    match type of H with context [check_strict _ _ _ ?c] => set (c0 := c) in H; assert (HB0 : d_bases (c_def c0) = d_bases d) by reflexivity end.
    clearbody c0. destruct (check_strict magic cfg reg c0) as [[]|e'] eqn:EC; cbn [bind] in H; [discriminate|]. injection H as <-.
    unfold check_strict in EC. rewrite HB0 in EC.
    destruct (mapM (check_base reg c0) (d_bases d)) as [?|e1] eqn:E1; cbn [bind] in EC.
    2:{ injection EC as <-. destruct (mapM_err_In _ _ _ E1) as (x & Hx & Hf). unfold check_base in Hf.
        destruct (Nat.eqb x module_id); [discriminate|]. destruct (nth_error reg x) as [cx|] eqn:Ex.
        - destruct (c_kind cx); [|discriminate|congruence].
          repeat (match type of Hf with (if ?b then _ else _) = _ => destruct b end); congruence.
        - apply nth_error_None in Ex. specialize (Hb _ Hx). lia. }
    destruct (check_name cfg c0) as [?|e1] eqn:E2; cbn [bind] in EC.
    2:{ injection EC as <-. unfold check_name in E2. destruct (allow_abstract_name cfg); [discriminate|].
        destruct (is_abstract c0), (d_abstract_name (c_def c0)); congruence. }
    destruct (mapM _ (d_dict (c_def c0))) as [?|e1] eqn:E4; cbn [bind] in EC; [discriminate|]. injection EC as <-.
    destruct (mapM_err_In _ _ _ E4) as ([n at0] & _ & Hf). unfold check_method in Hf.
    destruct (is_function at0 && negb (magic n) && negb (attr_abstract at0)); [|discriminate].
    destruct (mapM (check_override cfg reg n) (d_bases d)) as [?|e2] eqn:E5; cbn [bind] in Hf; [discriminate|]. injection Hf as <-.
    destruct (mapM_err_In _ _ _ E5) as (x & _ & Hg). unfold check_override in Hg. destruct (resolve _ n) as [old|]; [|discriminate].
    repeat (match type of Hg with (if ?b then _ else _) = _ => destruct b end); congruence.
  Qed.
End Errors.

(** Instantiation adds only [TypeError] to the exceptions of [__init__]. *)
Theorem C14_errors : forall V (c : cls) (init : res V) ran e, instantiate c init = (ran, Err e) ->
  e = TypeError \/ ran = true /\ init = Err e.
Proof.
  intros V c init ran e H. unfold instantiate in H. destruct (c_force c); [left; congruence|].
  destruct (negb _); [left; congruence|]. destruct (negb _); [left; congruence|]. destruct init as [v|e'].
  - destruct (negb _); [left; congruence|discriminate].
  - injection H as <- <-. right. auto.
Qed.
Print Assumptions C15_errors.
Print Assumptions C14_errors.

(** Both kinds occur: two bases whose orders conflict, and a string annotation. *)
Definition m_ann (n : name) (a : ann) : cdef :=
  {| d_abstract_name := false; d_bases := [1]; d_ann := [(n, a)]; d_dict := []; d_has_init := false; d_strict := None |}.
Definition m_bases (bs : list nat) : cdef :=
  {| d_abstract_name := false; d_bases := bs; d_ann := []; d_dict := []; d_has_init := false; d_strict := None |}.
Example ex_errors : create_module (fun _ => false) start (m_ann 3 StrAbs) = Err NotImplementedError /\
  create_module (fun _ => false) start (m_bases [0; 1]) = Err TypeError.
Proof. split; reflexivity. Qed.

(** ** C14, C15: only [StrictConfig(force_abstract=True)] makes a class abstract by itself. *)
Theorem C14_force : forall magic reg d c, create_module magic reg d = Ok c ->
  (c_force c = true <-> exists cfg, d_strict d = Some cfg /\ force_abstract cfg = true).
Proof.
  intros magic reg d c H. unfold create_module in H. apply bind_ok in H as (mro & _ & H). apply bind_ok in H as ([av acv] & _ & H).
  apply bind_ok in H as (dc & _ & H). apply bind_ok in H as (u & _ & H). injection H as <-. cbn [c_force].
  destruct (d_strict d) as [cfg|]; split.
  - intros H. exists cfg. auto.
  - intros (cfg' & E & H). congruence.
  - discriminate.
  - intros (cfg' & E & _). discriminate.
Qed.
Print Assumptions C14_force.
(** A class that is no Module can be a base of a strict class exactly if it is a special form such as [Generic]. *)
Theorem C15_plain_base : forall magic reg p c d cfg, create_plain false reg p = Ok c -> length reg <> module_id ->
  In (length reg) (d_bases d) -> d_strict d = Some cfg -> forall c', create_module magic (reg ++ [c]) d <> Ok c'.
Proof.
  intros magic reg p c d cfg Hp Hl Hb Hs c' H. unfold create_module in H. apply bind_ok in H as (mro & _ & H). apply bind_ok in H as ([av acv] & _ & H).
  apply bind_ok in H as (dc & _ & H). apply bind_ok in H as (u & Hu & H). rewrite Hs in Hu. destruct u. apply check_strict_inv in Hu as (HB & _ & _).
  specialize (HB _ Hb). unfold check_base in HB. destruct (Nat.eqb_spec (length reg) module_id); [contradiction|].
  rewrite nth_error_app2, Nat.sub_diag in HB by lia. cbn [nth_error] in HB. unfold create_plain in Hp. apply bind_ok in Hp as (m & _ & Hp). injection Hp as <-.
  cbn [c_kind] in HB. discriminate.
Qed.
Print Assumptions C15_plain_base.
Example C15_special_base : exists c c', create_plain true start (mk [0] [] [] None) = Ok c /\ create_module no_magic (start ++ [c]) (mk [1; 2] [] [] st) = Ok c' /\
  exists d, create_plain false start (mk [0] [] [] None) = Ok d /\ create_module no_magic (start ++ [d]) (mk [1; 2] [] [] st) = Err TypeError.
Proof. eexists _, _. split; [reflexivity|]. split; [vm_compute; reflexivity|]. eexists. split; vm_compute; reflexivity. Qed.
