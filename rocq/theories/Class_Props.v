(** C14: abstract attributes; C15: strict Modules. *)
From Verif Require Import Class_Proofs.

(** Class definitions in which no annotation is given twice (annotations are a dictionary). *)
Definition wf_def (d : cdef) : Prop := NoDup (map fst (d_ann d)).

(** C14. The computed sets are the unresolved declarations. [ds] are the definitions along the
    MRO, most derived class first. *)
Theorem C14_sets : forall ds av acv, Forall wf_def ds -> scan_mro ds = Ok (av, acv) -> forall n,
  (In n acv <-> open_classvar ds n) /\ (In n av <-> open_var ds n /\ ~ open_classvar ds n).
Proof. intros ds av acv H HS n. exact (scan_mro_spec ds H av acv HS n). Qed.
Print Assumptions C14_sets.

(** When the annotations of a class are refused. *)
Theorem C14_refused_iff : forall ds, (exists e, scan_mro ds = Err e) <-> Exists bad_ann ds.
Proof. exact scan_mro_err. Qed.
Print Assumptions C14_refused_iff.

(** A Module class created from [d] can be instantiated iff it is not forced to be abstract, no
    abstract method is left and every abstract attribute is resolved. *)
Lemma forced_spec : forall magic reg d c, create_module magic reg d = Ok c ->
  (c_force c = false <-> forall cfg, d_strict d = Some cfg -> force_abstract cfg = false).
Proof.
  intros magic reg d c H. unfold create_module in H. apply bind_ok in H as (mro & Hm & H).
  apply bind_ok in H as ([av acv] & Hs & H). apply bind_ok in H as (dc & Hdc & H). apply bind_ok in H as ([] & Hc & H).
  injection H as <-. cbn [c_force]. destruct (d_strict d) as [cfg|].
  - split; [intros E cfg' Ecfg; injection Ecfg as <-; exact E|intros E; exact (E cfg eq_refl)].
  - split; [discriminate|reflexivity].
Qed.
Theorem C14_instantiable_iff : forall magic reg d c (V : Type) (v : V),
  create_module magic reg d = Ok c ->
  let ds := d :: defs_along reg (tl (c_mro c)) in
  Forall wf_def ds ->
  (snd (instantiate c (Ok v)) = Ok v <->
   (forall cfg, d_strict d = Some cfg -> force_abstract cfg = false) /\ c_abstractmethods c = [] /\
   (forall n, ~ open_classvar ds n) /\ (forall n, ~ open_var ds n)).
Proof.
  intros magic reg d c V v Hc ds HW. rewrite instantiate_ok, <- (forced_spec magic reg d c Hc).
  apply create_module_inv in Hc as (_ & _ & _ & HS & _). fold ds in HS. pose proof (scan_mro_spec ds HW _ _ HS) as HX.
  unfold is_abstract. rewrite !orb_false_iff, !negb_false_iff, !len0.
  assert (HE : forall l : list name, l = [] <-> forall n, ~ In n l).
  { intros l. split; [intros -> n []|]. destruct l as [|x l]; auto. intros H. exfalso. apply (H x). left; auto. }
  rewrite (HE (c_absvars c)), (HE (c_absclassvars c)). split.
  - intros (((H1 & H2) & H3) & H4). do 2 (split; [auto|]). split.
    + intros n Hn. apply (H4 n). apply HX; auto.
    + intros n Hn. apply (H3 n). apply HX. split; auto. intros Hcv. apply (H4 n). apply HX; auto.
  - intros (H1 & H2 & H3 & H4). split; [split; [split; auto|]|].
    + intros n Hn. apply HX in Hn as [Hn _]. exact (H4 n Hn).
    + intros n Hn. apply HX in Hn. exact (H3 n Hn).
Qed.
Print Assumptions C14_instantiable_iff.

(** The check for [AbstractVar]s comes last: [__init__] has run by then, and an exception of
    [__init__] hides it. The other checks come before [__init__]. *)
Theorem C14_order : forall c (V : Type) (r : res V),
  (fst (instantiate c r) = true <-> c_force c = false /\ c_absclassvars c = [] /\ c_abstractmethods c = []) /\
  (forall e, fst (instantiate c r) = true -> r = Err e -> snd (instantiate c r) = Err e).
Proof.
  intros c V r. unfold instantiate. destruct (c_force c); cbn; [split; [split; [discriminate|intros [H _]; discriminate]|discriminate]|].
  destruct (c_absclassvars c); cbn; [|split; [split; [discriminate|intros (_ & H & _); discriminate]|discriminate]].
  destruct (c_abstractmethods c); cbn; [|split; [split; [discriminate|intros (_ & _ & H); discriminate]|discriminate]].
  destruct r as [v|e]; cbn; [destruct (c_absvars c); cbn|]; (split; [split; auto|intros e' _ H; congruence]).
Qed.
Print Assumptions C14_order.

Definition no_magic (_ : name) : bool := false.
Definition mk (bases : list nat) (anns : list (name * ann)) (dict : list (name * attr)) (s : option config) : cdef :=
  {| d_abstract_name := false; d_bases := bases; d_ann := anns; d_dict := dict; d_has_init := false; d_strict := s |}.
Definition mkA (bases : list nat) (anns : list (name * ann)) (dict : list (name * attr)) (s : option config) : cdef :=
  {| d_abstract_name := true; d_bases := bases; d_ann := anns; d_dict := dict; d_has_init := false; d_strict := s |}.
(** A program: Module definitions in order. *)
Fixpoint define (magic : name -> bool) (ds : list cdef) (reg : registry) : res registry :=
  match ds with
  | [] => Ok reg
  | d :: ds' => c <- create_module magic reg d ;; define magic ds' (reg ++ [c])
  end.
Definition instantiable (r : res registry) (i : nat) : option bool :=
  match r with
  | Ok reg => match nth_error reg i with
              | Some c => Some (match snd (instantiate c (Ok tt)) with Ok _ => true | Err _ => false end)
              | None => None end
  | Err _ => None
  end.
(** class 2: [x: AbstractVar; y: AbstractClassVar]; class 3(2): [x: int]; class 4(3): [y = ...];
    class 5(2): [y: int] does not resolve the class variable, but does not bring [x] back;
    class 6(4): [x: AbstractVar] again *)
Definition ex_abstract : list cdef :=
  [mk [1] [(0, AbsVar); (1, AbsClassVar)] [] None; mk [2] [(0, Plain)] [] None; mk [3] [] [(1, Other false)] None;
   mk [2] [(1, Plain)] [] None; mk [4] [(0, AbsVar)] [] None].
Example C14_ex : let r := define no_magic ex_abstract start in
  map (instantiable r) [2; 3; 4; 5; 6] = [Some false; Some false; Some true; Some false; Some false].
Proof. reflexivity. Qed.
Example C14_ex_sets : forall reg, define no_magic ex_abstract start = Ok reg ->
  map c_absvars reg = [[]; []; [0]; []; []; [0]; [0]] /\ map c_absclassvars reg = [[]; []; [1]; [1]; []; [1]; []].
Proof. intros reg H. vm_compute in H. inv H. split; reflexivity. Qed.
Example C14_ex_refused : create_module no_magic start (mk [1] [(0, AbsVar)] [(0, Other false)] None) = Err TypeError.
Proof. reflexivity. Qed.
(** An instance whose [AbstractVar]s are unresolved is refused, but only after [__init__] ran. *)
Example C14_ex_order : forall reg c, define no_magic [mk [1] [(0, AbsVar)] [] None] start = Ok reg ->
  nth_error reg 2 = Some c -> instantiate c (Ok tt) = (true, Err TypeError).
Proof. intros reg c H Hc. vm_compute in H. inv H. inv Hc. reflexivity. Qed.

(** C15. Bases of a strict class: [Module], a special class (e.g. [Generic]), or a strict abstract
    Module; and if that one has fields or its own [__init__], nothing may be added. *)
Theorem C15_bases : forall magic reg i c b, reachable magic reg ->
  nth_error reg i = Some c -> c_strict c = true -> In b (d_bases (c_def c)) ->
  b = module_id \/ exists cb, nth_error reg b = Some cb /\
    (c_kind cb = KSpecial \/
     c_kind cb = KModule /\ c_strict cb = true /\ is_abstract cb = true /\
     (c_fields cb <> [] \/ c_dc_init cb = false ->
        length (c_fields c) = length (c_fields cb) /\ d_has_init (c_def c) = false)).
Proof. intros magic reg i c b HR Hi Hs Hb. exact (strict_bases magic reg i c b HR (conj Hi Hs) Hb). Qed.
Print Assumptions C15_bases.

(** No concrete Module is an ancestor of a strict class, except [Module] itself and what special
    classes bring in. *)
Theorem C15_ancestors : forall magic reg i c x, reachable magic reg ->
  nth_error reg i = Some c -> c_strict c = true -> In x (c_mro c) -> x <> i ->
  exempt reg x \/
  exists cx, nth_error reg x = Some cx /\ c_kind cx = KModule /\ c_strict cx = true /\ is_abstract cx = true.
Proof.
  intros magic reg i c x HR Hi Hs Hx Hne.
  destruct (strict_ancestors magic reg HR i c (conj Hi Hs) x Hx) as [H|H]; [congruence|exact H].
Qed.
Print Assumptions C15_ancestors.

(** In other words: a concrete Module in the MRO of a strict class is that class itself. *)
Theorem C15_no_concrete_subclassed : forall magic reg i c j cj, reachable magic reg ->
  nth_error reg i = Some c -> c_strict c = true -> nth_error reg j = Some cj -> is_abstract cj = false ->
  c_kind cj = KModule -> In j (c_mro c) -> j = i \/ exempt reg j.
Proof.
  intros magic reg i c j cj HR Hi Hs Hj Ha _ Hin.
  destruct (strict_ancestors magic reg HR i c (conj Hi Hs) j Hin) as [H|[H|(cx & H1 & _ & _ & H2)]]; auto. congruence.
Qed.
Print Assumptions C15_no_concrete_subclassed.

(** Overriding: a concrete non-magic method of a strict class without [allow_method_override]. In
    the MRO of each base, the method is not defined at all or its first definition is an abstract
    method. *)
Theorem C15_override_partial : forall magic reg i c n b cb, reachable magic reg ->
  nth_error reg i = Some c -> c_strict c = true ->
  (forall cfg, d_strict (c_def c) = Some cfg -> allow_method_override cfg = false) ->
  In (n, Fun false) (d_dict (c_def c)) -> magic n = false ->
  In b (d_bases (c_def c)) -> nth_error reg b = Some cb ->
  let ds := defs_along reg (c_mro cb) in
  forall k dk a, nth_error ds k = Some dk -> aget (d_dict dk) n = Some a ->
  exists j dj, j <= k /\ nth_error ds j = Some dj /\ aget (d_dict dj) n = Some (Fun true).
Proof.
  intros magic reg i c n b cb HR Hi Hs Hov Hin Hm Hb Hcb ds k dk a Hk Hd.
  pose proof (strict_override magic reg i c n (Fun false) b HR (conj Hi Hs) Hov Hin eq_refl Hm eq_refl Hb) as HO.
  unfold mro_of in HO. rewrite Hcb in HO. fold ds in HO. destruct (resolve ds n) as [old|] eqn:E.
  - subst old. apply (resolve_spec magic) in E as (j & dj & Hj & He & Hb'). exists j, dj. split; [|auto].
    destruct (Nat.le_gt_cases j k) as [|Hlt]; auto. specialize (Hb' k dk Hlt Hk). congruence.
  - exfalso. pose proof (proj1 (resolve_none ds n) E dk (nth_error_In _ _ Hk)). congruence.
Qed.
Print Assumptions C15_override_partial.

(** The name rule. *)
Theorem C15_names : forall magic reg i c cfg, reachable magic reg -> nth_error reg i = Some c ->
  c_strict c = true -> d_strict (c_def c) = Some cfg -> allow_abstract_name cfg = false ->
  (d_abstract_name (c_def c) = true <-> is_abstract c = true).
Proof.
  intros magic reg i c cfg HR Hi Hs Hcfg Ha.
  destruct (strict_created magic reg i c HR (conj Hi Hs)) as (reg0 & rest & cfg' & _ & _ & _ & _ & Hst & _ & Hck).
  rewrite Hcfg in Hst. inv Hst. apply check_strict_inv in Hck as (_ & HN & _). unfold check_name in HN. rewrite Ha in HN.
  destruct (is_abstract c), (d_abstract_name (c_def c)); try discriminate; tauto.
Qed.
Print Assumptions C15_names.

(** As stated, "at most one concrete implementation along the MRO" is false in three ways, each
    with default strictness throughout. *)
Definition concrete_defs (reg : registry) (i : nat) (n : name) : nat :=
  match nth_error reg i with
  | None => 0
  | Some c => length (List.filter (fun d => match aget (d_dict d) n with Some (Fun false) => true | _ => false end)
                                  (defs_along reg (c_mro c)))
  end.
Definition all_strict (ds : list cdef) : Prop := Forall (fun d => d_strict d = Some default_config) ds.
Definition st := Some default_config.
(** Redeclaring the method as abstract in between. *)
Theorem C15_redeclared_refuted : exists ds reg, all_strict ds /\ define no_magic ds start = Ok reg /\ concrete_defs reg 4 0 = 2.
Proof.
  exists [mkA [1] [] [(0, Fun false); (1, Fun true)] st; mkA [2] [] [(0, Fun true)] st; mk [3] [] [(0, Fun false); (1, Fun false)] st].
  eexists. split; [repeat constructor|]. split; [vm_compute; reflexivity|reflexivity].
Qed.
Print Assumptions C15_redeclared_refuted.
(** Two bases with different implementations: the first silently overrides the second. *)
Theorem C15_diamond_refuted : exists ds reg, all_strict ds /\ define no_magic ds start = Ok reg /\ concrete_defs reg 4 0 = 2.
Proof.
  exists [mkA [1] [] [(0, Fun false); (1, Fun true)] st; mkA [1] [] [(0, Fun false); (1, Fun true)] st; mk [2; 3] [] [(1, Fun false)] st].
  eexists. split; [repeat constructor|]. split; [vm_compute; reflexivity|reflexivity].
Qed.
Print Assumptions C15_diamond_refuted.
(** Magic methods such as [__call__] (here: name 0) are not checked. *)
Theorem C15_magic_refuted : exists ds reg, all_strict ds /\ define (Nat.eqb 0) ds start = Ok reg /\ concrete_defs reg 3 0 = 2.
Proof.
  exists [mkA [1] [] [(0, Fun false); (1, Fun true)] st; mk [2] [] [(0, Fun false); (1, Fun false)] st].
  eexists. split; [repeat constructor|]. split; [vm_compute; reflexivity|reflexivity].
Qed.
Print Assumptions C15_magic_refuted.
(** The rule about fields only counts them: [x: ClassVar[int]; y: int] below a base with the single
    field [x] is accepted, although it removes one field and adds another. *)
Theorem C15_fields_refuted : exists ds reg, all_strict ds /\ define no_magic ds start = Ok reg /\
  map c_fields reg = [[]; []; [0]; [2]].
Proof.
  exists [mkA [1] [(0, Plain)] [(1, Fun true)] st; mk [2] [(0, ClsVar); (2, Plain)] [(1, Fun false)] st].
  eexists. split; [repeat constructor|]. split; [vm_compute; reflexivity|reflexivity].
Qed.
Print Assumptions C15_fields_refuted.

(** Ordinary uses: accepted and refused. *)
Example C15_ex_accepted : exists reg c, reachable no_magic reg /\ nth_error reg 3 = Some c /\ c_strict c = true /\
  is_abstract c = false /\ In 2 (d_bases (c_def c)) /\ In (0, Fun false) (d_dict (c_def c)) /\ c_mro c = [3; 2; 1; 0].
Proof.
  assert (exists reg, define no_magic [mkA [1] [] [(0, Fun true)] st; mk [2] [] [(0, Fun false)] st] start = Ok reg) as [reg H].
  { eexists. vm_compute. reflexivity. }
  exists reg. pose proof H as H0. vm_compute in H0. inv H0. eexists. split.
  - refine (reach_module _ [_; _; _] (mk [2] [] [(0, Fun false)] st) _ _ _ _ _).
    + refine (reach_module _ [_; _] (mkA [1] [] [(0, Fun true)] st) _ _ _ _ _); [apply reach_start| |reflexivity|reflexivity].
      intros b [<-|[]]. cbn. auto.
    + intros b [<-|[]]. cbn. auto.
    + reflexivity.
    + reflexivity.
  - split; [reflexivity|]. cbn. auto 8.
Qed.
Example C15_ex_refused_override :
  define no_magic [mkA [1] [] [(0, Fun false); (1, Fun true)] st; mk [2] [] [(0, Fun false); (1, Fun false)] st] start = Err TypeError.
Proof. reflexivity. Qed.
Example C15_ex_refused_concrete : define no_magic [mk [1] [] [(0, Fun false)] st; mk [2] [] [] st] start = Err TypeError.
Proof. reflexivity. Qed.
Example C15_ex_refused_nonstrict : define no_magic [mkA [1] [] [(0, Fun true)] None; mk [2] [] [(0, Fun false)] st] start = Err TypeError.
Proof. reflexivity. Qed.
Example C15_ex_refused_field :
  define no_magic [mkA [1] [(0, Plain)] [(1, Fun true)] st; mk [2] [(2, Plain)] [(1, Fun false)] st] start = Err TypeError.
Proof. reflexivity. Qed.

(** ** Which classes get a generated [__init__] (this is [c_dc_init] in [C15_bases]).
    A class that is not a Module has no [__init__] of its own if none is defined along its MRO. A Module has a generated one
    if it defines none, and the first Module of the MRO behind it has a generated one, the classes in between having none. *)
Inductive no_init (reg : registry) : nat -> Prop :=
| ni : forall i c, nth_error reg i = Some c -> c_kind c <> KModule -> d_has_init (c_def c) = false ->
    (forall x, In x (tl (c_mro c)) -> no_init reg x) -> no_init reg i.
Inductive generated_init (reg : registry) : nat -> Prop :=
| gi_module : generated_init reg module_id
| gi_inherit : forall i c pre m post, nth_error reg i = Some c -> c_kind c = KModule -> d_has_init (c_def c) = false ->
    c_mro c = i :: pre ++ m :: post -> post <> [] -> Forall (no_init reg) pre -> generated_init reg m ->
    generated_init reg i.

Lemma find_dc_init_true reg l : find_dc_init reg l = Ok true <->
  exists pre m post cm, l = pre ++ m :: post /\ nth_error reg m = Some cm /\ c_kind cm = KModule /\ c_dc_init cm = true /\
    Forall (fun b => exists cb, nth_error reg b = Some cb /\ c_kind cb <> KModule /\ c_dc_init cb = true) pre.
Proof.
  split.
  - induction l as [|b l IH]; cbn [find_dc_init]; [discriminate|]. destruct (nth_error reg b) as [c|] eqn:E; [|discriminate].
    assert (HN : c_kind c <> KModule -> c_dc_init c = true -> find_dc_init reg l = Ok true ->
      exists pre m post cm, b :: l = pre ++ m :: post /\ nth_error reg m = Some cm /\ c_kind cm = KModule /\ c_dc_init cm = true /\
        Forall (fun b => exists cb, nth_error reg b = Some cb /\ c_kind cb <> KModule /\ c_dc_init cb = true) pre).
    { intros HK HD HF. destruct (IH HF) as (pre & m & post & cm & -> & H1 & H2 & H3 & H4).
      exists (b :: pre), m, post, cm. do 4 (split; [auto|]). constructor; eauto. }
    destruct (c_kind c) eqn:K.
    + intros H. exists [], b, l, c. do 3 (split; [auto|]). split; [congruence|constructor].
    + destruct (c_dc_init c) eqn:D; [|discriminate]. intros H. apply HN; auto; congruence.
    + destruct (c_dc_init c) eqn:D; [|discriminate]. intros H. apply HN; auto; congruence.
  - intros (pre & m & post & cm & -> & H1 & H2 & H3 & H4). induction H4 as [|b pre (cb & Hb & HK & HD) _ IH]; cbn [find_dc_init app].
    + rewrite H1, H2. congruence.
    + rewrite Hb, HD. destruct (c_kind cb); congruence.
Qed.

Section Init.
  Variable magic : name -> bool.
  Lemma reach_start_cls r : reachable magic r -> nth_error r 0 = Some object_cls /\ nth_error r 1 = Some module_cls.
  Proof.
    induction 1 as [|r d c0 HR0 [A B] _ _ _|r sp d c0 HR0 [A B] _ _ _]; [auto| |];
      (rewrite !nth_error_app1 by (apply nth_error_lt in A, B; lia); auto).
  Qed.
  (** Classes along the MRO of a class that is not a Module are not Modules either. *)
  Lemma plain_mro reg : reachable magic reg -> forall i c x, nth_error reg i = Some c -> c_kind c <> KModule -> In x (c_mro c) ->
    exists cx, nth_error reg x = Some cx /\ c_kind cx <> KModule.
  Proof.
    induction 1 as [|reg d c HR IH Hb Hm Hc|reg sp d c HR IH Hb Hm Hc]; intros i c' x Hi Hk Hx.
    - destruct i as [|[|i]]; cbn in Hi; [inv Hi| |destruct i; discriminate].
      + destruct Hx as [<-|[]]. exists object_cls. split; [reflexivity|discriminate].
      + inv Hi. destruct (Hk eq_refl).
    - destruct (reach_split magic reg c i) as [E|E].
      + rewrite E in Hi. destruct (IH _ _ _ Hi Hk Hx) as (cx & H1 & H2). exists cx. split; auto.
        rewrite nth_error_app1; auto. apply nth_error_lt in H1; auto.
      + subst i. rewrite nth_error_app2, Nat.sub_diag in Hi by auto. cbn in Hi. inv Hi.
        apply create_module_inv in Hc as (HK & _). destruct (Hk HK).
    - destruct (reach_split magic reg c i) as [E|E].
      + rewrite E in Hi. destruct (IH _ _ _ Hi Hk Hx) as (cx & H1 & H2). exists cx. split; auto.
        rewrite nth_error_app1; auto. apply nth_error_lt in H1; auto.
      + subst i. rewrite nth_error_app2, Nat.sub_diag in Hi by auto. cbn in Hi. inv Hi.
        unfold create_plain in Hc. apply bind_ok in Hc as (mro & Hc3 & Hc). inv Hc. cbn [c_mro] in Hx.
        assert (HB : forall b, In b (d_bases d) -> exists cb, nth_error reg b = Some cb /\ c_kind cb <> KModule).
        { intros b Hbb. destruct (nth_error_ge_ex reg b (Hb b Hbb)) as [cb Hcb]. exists cb. split; auto. intros HK.
          assert (existsb (is_module reg) (d_bases d) = true); [|congruence].
          apply existsb_exists. exists b. split; auto. unfold is_module. rewrite Hcb, HK. auto. }
        assert (HX : x = length reg \/ exists cx, nth_error reg x = Some cx /\ c_kind cx <> KModule).
        { destruct (c3_In _ _ _ _ _ Hc3 Hx) as [?|[Hxb|(b & Hbb & Hxb)]]; auto.
          right. destruct (HB b Hbb) as (cb & H1 & H2). unfold mro_of in Hxb. rewrite H1 in Hxb. eauto. }
        destruct HX as [->|(cx & H1 & H2)].
        * eexists. split; [rewrite nth_error_app2, Nat.sub_diag by auto; reflexivity|]. exact Hk.
        * exists cx. split; auto. rewrite nth_error_app1; auto. apply nth_error_lt in H1; auto.
  Qed.
  Lemma c3_tl reg self bases mro x : c3 reg self bases = Ok mro -> In x (tl mro) ->
    In x bases \/ exists b, In b bases /\ In x (mro_of reg b).
  Proof.
    unfold c3. intros H Hx. destruct (c3_merge _ _) as [l|] eqn:E; [|discriminate]. cbn in H. inv H. cbn [tl] in Hx.
    destruct (c3_merge_In _ _ _ _ E Hx) as (s & Hs & Hxs).
    apply in_app_iff in Hs as [Hs|[<-|[]]]; auto. apply in_map_iff in Hs as (b & <- & Hb). right. eauto.
  Qed.
  (** How a class was created: the MRO behind it is older, and what [c_dc_init] is. *)
  Lemma created reg i c : reachable magic reg -> nth_error reg i = Some c -> 2 <= i ->
    exists reg0, reachable magic reg0 /\ (forall x, x < i -> nth_error reg x = nth_error reg0 x) /\
      (forall x, In x (tl (c_mro c)) -> x < i /\ exists cx, nth_error reg x = Some cx) /\ (exists l, c_mro c = i :: l) /\
      ((c_kind c = KModule /\ (if d_has_init (c_def c) then Ok false else find_dc_init reg0 (removelast (tl (c_mro c)))) = Ok (c_dc_init c)) \/
       (c_kind c <> KModule /\ c_dc_init c = negb (d_has_init (c_def c)) &&
          forallb (fun b => match nth_error reg0 b with Some c => c_dc_init c | None => true end) (tl (c_mro c)))).
  Proof.
    intros HR Hi H2. destruct (reach_created magic reg HR i c Hi) as [?|(reg0 & rest & -> & Hl & Hr & Hb & Hc)]; [lia|].
    exists reg0. split; [auto|].
    assert (HA : forall x, x < i -> nth_error (reg0 ++ c :: rest) x = nth_error reg0 x) by (intros x Hx; apply nth_error_app1; lia).
    split; [exact HA|].
    assert (HC : c3 reg0 (length reg0) (d_bases (c_def c)) = Ok (c_mro c)).
    { destruct Hc as [Hc|(sp & Hc & _)]; [apply create_module_inv in Hc as (_ & _ & H & _); exact H|].
      unfold create_plain in Hc. apply bind_ok in Hc as (mro & Hc3 & Hc).
      assert (E : c_mro c = mro) by (injection Hc as <-; reflexivity). rewrite E. exact Hc3. }
    split.
    { intros x Hx. assert (Hlt : x < i).
      { destruct (c3_tl _ _ _ _ _ HC Hx) as [H|(b & Hbb & Hxb)]; [auto|]. unfold mro_of in Hxb.
        destruct (nth_error reg0 b) as [cb|] eqn:Eb; [|destruct Hxb].
        destruct (proj2 (reach_wf magic reg0 Hr) _ _ Eb) as (_ & HL & _). specialize (HL x Hxb). specialize (Hb b Hbb). lia. }
      split; [exact Hlt|]. rewrite HA by exact Hlt. destruct (nth_error reg0 x) as [cx|] eqn:E; [eauto|].
      apply nth_error_None in E. lia. }
    split; [rewrite <- Hl; eapply c3_hd; eauto|].
    destruct Hc as [Hc|(sp & Hc & Hk)].
    - left. pose proof Hc as Hc'. apply create_module_inv in Hc' as (HK & _). split; [exact HK|].
      unfold Class_Model.create_module in Hc. apply bind_ok in Hc as (mro & Hm & Hc). apply bind_ok in Hc as ([av acv] & Hs & Hc).
      apply bind_ok in Hc as (dc & Hdc & Hc). apply bind_ok in Hc as ([] & Hck & Hc).
      assert (E : c_mro c = mro /\ c_dc_init c = dc) by (injection Hc as <-; split; reflexivity).
      destruct E as [-> ->]. exact Hdc.
    - right. split; [exact Hk|]. unfold create_plain in Hc. apply bind_ok in Hc as (mro & Hc3 & Hc).
      assert (E : c_mro c = mro) by (injection Hc as <-; reflexivity). rewrite E. injection Hc as Hc. rewrite <- Hc at 1. reflexivity.
  Qed.
  Lemma plain_init reg : reachable magic reg -> forall i c, nth_error reg i = Some c -> c_kind c <> KModule ->
    (c_dc_init c = true <-> no_init reg i).
  Proof.
    intros HR i. induction i as [i IH] using lt_wf_ind. intros c Hi Hk.
    destruct (Nat.lt_ge_cases i 2) as [Hlt|Hge].
    - destruct (reach_start_cls reg HR) as [H0 H1]. destruct i as [|[|i]]; [| |lia].
      + rewrite H0 in Hi. inv Hi. split; [|reflexivity]. intros _. econstructor; [exact H0|discriminate|reflexivity|intros x []].
      + rewrite H1 in Hi. inv Hi. destruct (Hk eq_refl).
    - destruct (created reg i c HR Hi Hge) as (reg0 & _ & HA & HT & (l & HM) & [[HK _]|[_ HD]]); [contradiction|]. rewrite HD.
      assert (HP : forall x, In x (tl (c_mro c)) -> exists cx, nth_error reg0 x = Some cx /\ nth_error reg x = Some cx /\
                     (c_dc_init cx = true <-> no_init reg x)).
      { intros x Hx. destruct (HT x Hx) as [Hlt _].
        destruct (plain_mro reg HR i c x Hi Hk) as (cx & H1 & H2); [rewrite HM in *; right; exact Hx|].
        exists cx. rewrite <- (HA x Hlt). auto. }
      rewrite Bool.andb_true_iff, Bool.negb_true_iff, forallb_forall. split.
      + intros [Ho HF]. econstructor; eauto. intros x Hx. destruct (HP x Hx) as (cx & H1 & _ & H3). apply H3.
        specialize (HF x Hx). cbv beta in HF. rewrite H1 in HF. exact HF.
      + intros HN. inversion HN as [i' c' Hi' _ Ho HX]; subst. rewrite Hi in Hi'. inv Hi'. split; [exact Ho|].
        intros x Hx. destruct (HP x Hx) as (cx & H1 & _ & H3). rewrite H1. apply H3, HX, Hx.
  Qed.
End Init.
Theorem C15_generated_init : forall magic reg i c, reachable magic reg -> nth_error reg i = Some c -> c_kind c = KModule ->
  (c_dc_init c = true <-> generated_init reg i).
Proof.
  intros magic reg i c HR. revert c. induction i as [i IH] using lt_wf_ind. intros c Hi Hk.
  destruct (reach_start_cls magic reg HR) as [H0 H1]. destruct (Nat.lt_ge_cases i 2) as [Hlt|Hge].
  - destruct i as [|[|i]]; [| |lia].
    + rewrite H0 in Hi. inv Hi. discriminate.
    + rewrite H1 in Hi. inv Hi. split; [intros _; apply gi_module|reflexivity].
  - destruct (created magic reg i c HR Hi Hge) as (reg0 & _ & HA & HT & (l & HM) & [[_ HD]|[HK _]]); [|contradiction].
    rewrite HM in HD, HT. cbn [tl] in HD, HT.
    assert (HI : forall x, In x (removelast l) -> In x l).
    { intros x Hx. destruct l as [|y l']; [destruct Hx|]. rewrite (app_removelast_last (l := y :: l') 0) by discriminate. apply in_app_iff. auto. }
    split.
    + intros Hd. destruct (d_has_init (c_def c)) eqn:Ho; [congruence|]. rewrite Hd in HD.
      apply find_dc_init_true in HD as (pre & m & post & cm & E & Hm & Hkm & Hdm & HF).
      assert (HL : forall x, In x (pre ++ m :: post) -> x < i) by (intros x Hx; apply HT, HI; rewrite E; exact Hx).
      assert (Hl : exists z, l = pre ++ m :: (post ++ [z])).
      { destruct l as [|y l']; [destruct pre; discriminate|].
        exists (last (y :: l') 0). rewrite (app_removelast_last (l := y :: l') 0) at 1 by discriminate. rewrite E, <- app_assoc. reflexivity. }
      destruct Hl as (z & Hl). rewrite Hl in HM.
      econstructor; [exact Hi|exact Hk|exact Ho|exact HM|destruct post; discriminate| |].
      * rewrite Forall_forall in *. intros b Hb. destruct (HF b Hb) as (cb & B1 & B2 & B3).
        rewrite <- HA in B1 by (apply HL, in_app_iff; auto). exact (proj1 (plain_init magic reg HR b cb B1 B2) B3).
      * assert (Hlm : m < i) by (apply HL, in_app_iff; right; left; reflexivity).
        rewrite <- HA in Hm by exact Hlm. exact (proj1 (IH m Hlm cm Hm Hkm) Hdm).
    + intros HG. inversion HG as [E|i' c' pre m post Hi' _ Ho HM' Hp HF HG']; subst; [unfold module_id in *; lia|].
      rewrite Hi in Hi'. inv Hi'. rewrite HM in HM'. inv HM'. rewrite Ho in HD.
      assert (E : removelast (pre ++ m :: post) = pre ++ m :: removelast post).
      { rewrite removelast_app by discriminate. f_equal. destruct post; [congruence|reflexivity]. }
      rewrite E in HD.
      assert (HT' : find_dc_init reg0 (pre ++ m :: removelast post) = Ok true); [|congruence].
      assert (Hlm : m < i) by (apply HT, in_app_iff; right; left; reflexivity).
      destruct (HT m) as (_ & cm & Hm); [apply in_app_iff; right; left; reflexivity|].
      assert (Hkm : c_kind cm = KModule).
      { inversion HG' as [E'|i' c2 pre' m' post' Hi2 Hk2 _ _ _ _ _]; subst.
        - unfold module_id in Hm. rewrite H1 in Hm. inv Hm. reflexivity.
        - rewrite Hm in Hi2. inv Hi2. exact Hk2. }
      apply find_dc_init_true. exists pre, m, (removelast post), cm. split; [reflexivity|]. split; [rewrite <- HA; auto|].
      split; [exact Hkm|]. split; [exact (proj2 (IH m Hlm cm Hm Hkm) HG')|].
      rewrite Forall_forall in *. intros b Hb. pose proof (HF b Hb) as HN. inversion HN as [i' cb B1 B2 B3 B4]; subst.
      exists cb. split; [rewrite <- HA; [exact B1|]; apply HT, in_app_iff; auto|]. split; [exact B2|].
      exact (proj2 (plain_init magic reg HR b cb B1 B2) HN).
Qed.
Print Assumptions C15_generated_init.
(** Not what Python's attribute lookup would give: P inherits [__init__] from Q, the Module A derives from Q too; in
    the MRO of M(P, A) = [M; P; A; Module; Q; object] the first own [__init__] is A's generated one, but M gets none. *)
Definition plain_def (bases : list nat) (init : bool) : cdef :=
  {| d_abstract_name := false; d_bases := bases; d_ann := []; d_dict := []; d_has_init := init; d_strict := None |}.
Theorem C15_lookup_init_refuted : exists reg m a, reachable no_magic reg /\ nth_error reg 5 = Some m /\ nth_error reg 4 = Some a /\
  c_mro m = [5; 3; 4; 1; 2; 0] /\
  map (fun i => match nth_error reg i with Some c => d_has_init (c_def c) | None => false end) [5; 3; 4; 1; 2; 0] = [false; false; false; false; true; false] /\
  generated_init reg 4 /\ ~ generated_init reg 5.
Proof.
  assert (HR : exists reg m a, reachable no_magic reg /\ nth_error reg 5 = Some m /\ nth_error reg 4 = Some a /\
    c_mro m = [5; 3; 4; 1; 2; 0] /\ map (fun i => match nth_error reg i with Some c => d_has_init (c_def c) | None => false end) [5; 3; 4; 1; 2; 0] = [false; false; false; false; true; false] /\
    c_kind a = KModule /\ c_kind m = KModule /\ c_dc_init a = true /\ c_dc_init m = false).
  { eexists ([_; _; _; _; _] ++ [_]), _, _. split.
    - refine (reach_module _ _ (plain_def [3; 4] false) _ _ _ _ _);
        [refine (reach_module _ [_; _; _; _] (plain_def [1; 2] false) _ _ _ _ _);
           [refine (reach_plain _ [_; _; _] false (plain_def [2] false) _ _ _ _ _);
              [refine (reach_plain _ [_; _] false (plain_def [0] true) _ _ _ _ _); [apply reach_start| | |]| | |]| | |]| | |];
        try (cbn; lia); try reflexivity; cbn; intros b Hb; intuition subst; auto 8.
    - repeat split; reflexivity. }
  destruct HR as (reg & m & a & HR & Hm & Ha & E1 & E2 & K1 & K2 & D1 & D2).
  exists reg, m, a. do 5 (split; [auto|]). split.
  - apply (C15_generated_init _ reg 4 a HR Ha K1). exact D1.
  - intros HG. apply (C15_generated_init _ reg 5 m HR Hm K2) in HG. congruence.
Qed.
Print Assumptions C15_lookup_init_refuted.

(** The dataclass fields of a new class. What the class itself says last about a name decides; and
    if it says nothing, the first class of the MRO that knows the name. [Some false]: a class
    variable, which hides the fields of that name further along the MRO. *)
Fixpoint says (anns : list (name * ann)) (n : name) : option bool :=
  match anns with
  | [] => None
  | (m, a) :: anns' =>
      match says anns' n with
      | Some b => Some b
      | None => if Nat.eqb m n then match a with Plain => Some true | ClsVar => Some false | _ => None end else None
      end
  end.
Fixpoint first_known (reg : registry) (mro : list nat) (n : name) : option bool :=
  match mro with
  | [] => None
  | b :: mro' =>
      match nth_error reg b with
      | Some c => match aget (c_dcfields c) n with Some v => Some v | None => first_known reg mro' n end
      | None => first_known reg mro' n
      end
  end.
Lemma set_field_keys n b fs x : In x (map fst (set_field n b fs)) <-> x = n \/ In x (map fst fs).
Proof.
  induction fs as [|[m c] fs IH]; cbn; [intuition|]. destruct (Nat.eqb_spec m n) as [->|]; cbn; [intuition|].
  rewrite IH. intuition.
Qed.
Lemma set_field_NoDup n b fs : NoDup (map fst fs) -> NoDup (map fst (set_field n b fs)).
Proof.
  induction fs as [|[m c] fs IH]; cbn; intros H; [constructor; auto|].
  inversion H as [|y l H1 H2]; subst. destruct (Nat.eqb_spec m n) as [->|Hm]; cbn; [constructor; auto|].
  constructor; auto. rewrite set_field_keys. intros [->|Hi]; auto.
Qed.
Lemma own_fields_NoDup anns : forall fs, NoDup (map fst fs) -> NoDup (map fst (own_fields anns fs)).
Proof. induction anns as [|[m a] anns IH]; intros fs H; cbn; auto. destruct a; auto; apply IH; apply set_field_NoDup; auto. Qed.
Lemma update_NoDup l : forall fs, NoDup (map fst fs) ->
  NoDup (map fst (fold_left (fun (fs : list (name * bool)) nb => set_field (fst nb) (snd nb) fs) l fs)).
Proof. induction l as [|[m b] l IH]; intros fs H; cbn; auto. apply IH. apply set_field_NoDup; auto. Qed.
Lemma own_fields_aget anns : forall fs n,
  aget (own_fields anns fs) n = match says anns n with Some b => Some b | None => aget fs n end.
Proof.
  induction anns as [|[m a] anns IH]; intros fs n; cbn; auto.
  destruct a; rewrite IH; destruct (says anns n); try reflexivity; destruct (Nat.eqb m n) eqn:E; try reflexivity;
    rewrite aget_set_field, E; reflexivity.
Qed.
Lemma update_aget (l : list (name * bool)) : NoDup (map fst l) -> forall fs n,
  aget (fold_left (fun (fs : list (name * bool)) nb => set_field (fst nb) (snd nb) fs) l fs) n =
  match aget l n with Some b => Some b | None => aget fs n end.
Proof.
  induction l as [|[m b] l IH]; cbn; intros HN fs n; auto. inversion HN as [|y k H1 H2]; subst.
  rewrite (IH H2), aget_set_field. destruct (Nat.eqb_spec m n) as [->|]; [|reflexivity].
  replace (aget l n) with (@None bool); [reflexivity|]. symmetry. apply aget_None. auto.
Qed.
Lemma inherited_NoDup reg mro : NoDup (map fst (inherited_fields reg mro)).
Proof.
  unfold inherited_fields. enough (H : forall fs, NoDup (map fst fs) -> NoDup (map fst (fold_left (fun fs b => match nth_error reg b with
                         | Some c => fold_left (fun fs nb => set_field (fst nb) (snd nb) fs) (c_dcfields c) fs
                         | None => fs end) (rev mro) fs))) by (apply H; constructor).
  induction (rev mro) as [|b l IH]; intros fs H; cbn; auto. apply IH. destruct (nth_error reg b); auto. apply update_NoDup; auto.
Qed.
Lemma dcfields_NoDup magic reg : reachable magic reg -> forall i c, nth_error reg i = Some c -> NoDup (map fst (c_dcfields c)).
Proof.
  induction 1 as [|reg d c HR IH Hb Hm Hc|reg sp d c HR IH Hb Hm Hc]; intros i c' Hi.
  - destruct i as [|[|[|i]]]; cbn in Hi; inv Hi; constructor.
  - destruct (Nat.lt_ge_cases i (length reg)); [rewrite nth_error_app1 in Hi by auto; eauto|].
    rewrite nth_error_app2 in Hi by auto. destruct (i - length reg) as [|[|k]]; cbn in Hi; inv Hi.
    apply create_module_inv in Hc as (_ & _ & _ & _ & _ & -> & _). apply own_fields_NoDup, inherited_NoDup.
  - destruct (Nat.lt_ge_cases i (length reg)); [rewrite nth_error_app1 in Hi by auto; eauto|].
    rewrite nth_error_app2 in Hi by auto. destruct (i - length reg) as [|[|k]]; cbn in Hi; inv Hi.
    unfold create_plain in Hc. apply bind_ok in Hc as (mro & _ & Hc). inv Hc. constructor.
Qed.
Lemma inherited_aget reg mro n : (forall i c, nth_error reg i = Some c -> NoDup (map fst (c_dcfields c))) ->
  aget (inherited_fields reg mro) n = first_known reg mro n.
Proof.
  intros HN. unfold inherited_fields. induction mro as [|b mro IH]; cbn; auto.
  rewrite fold_left_app. cbn. destruct (nth_error reg b) as [c|] eqn:E; [|exact IH].
  rewrite update_aget by eauto. rewrite IH. reflexivity.
Qed.
Theorem C15_field_lookup : forall magic reg d c n, reachable magic reg -> create_module magic reg d = Ok c ->
  aget (c_dcfields c) n = match says (d_ann d) n with Some b => Some b | None => first_known reg (tl (c_mro c)) n end /\
  NoDup (c_fields c) /\ (In n (c_fields c) <-> aget (c_dcfields c) n = Some true).
Proof.
  intros magic reg d c n HR Hc. pose proof (dcfields_NoDup _ _ HR) as HD.
  pose proof (create_module_inv _ _ _ _ Hc) as (_ & _ & _ & _ & _ & HF & _).
  assert (HN : NoDup (map fst (c_dcfields c))) by (rewrite HF; apply own_fields_NoDup, inherited_NoDup).
  split; [rewrite HF, own_fields_aget, inherited_aget; auto|]. clear HF. unfold c_fields.
  induction (c_dcfields c) as [|[m b] fs IH]; cbn in *; [split; [constructor|split; [intros []|discriminate]]|].
  inversion HN as [|y l H1 H2]; subst. destruct (IH H2) as [IH1 IH2].
  assert (HX : ~ In m (map fst (List.filter snd fs))).
  { intros Hi. apply H1. apply in_map_iff in Hi as (p & <- & Hp). apply filter_In in Hp as [Hp _]. apply in_map; auto. }
  destruct b; cbn.
  - split; [constructor; auto|]. destruct (Nat.eqb_spec m n) as [->|Hm]; [intuition|]. rewrite <- IH2. intuition.
  - split; auto. destruct (Nat.eqb_spec m n) as [->|Hm]; [split; [contradiction|discriminate]|exact IH2].
Qed.
Print Assumptions C15_field_lookup.
(** [class A: x: int], [class B(A): x: ClassVar], [class C(A)], [class D(B, C)]: no field is left. *)
Example C15_field_ex : forall reg, define no_magic [mk [1] [(0, Plain)] [] None; mk [2] [(0, ClsVar)] [] None;
    mk [2] [] [] None; mk [3; 4] [] [] None; mk [4; 3] [] [] None] start = Ok reg ->
  map c_fields reg = [[]; []; [0]; []; [0]; []; [0]].
Proof. intros reg H. vm_compute in H. inv H. reflexivity. Qed.
