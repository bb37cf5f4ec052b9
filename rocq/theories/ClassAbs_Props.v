(** C14, abstract methods: which classes have methods left abstract. *)
From Verif Require Import Class_Proofs Enum_Proofs.
From Verif Require Export Class_Props.

Section Methods.
  Variable magic : name -> bool.
  Notation reachable := (reachable magic).

  (** The first class along an MRO that defines [n] is [x], and its definition is [a]. *)
  Definition definer (reg : registry) (mro : list nat) (x : nat) (n : name) (a : attr) : Prop :=
    exists l1 l2 cx, mro = l1 ++ x :: l2 /\ nth_error reg x = Some cx /\ aget (d_dict (c_def cx)) n = Some a /\
      forall y cy, In y l1 -> nth_error reg y = Some cy -> aget (d_dict (c_def cy)) n = None.

  Lemma resolve_definer reg mro n a : resolve (defs_along reg mro) n = Some a <-> exists x, definer reg mro x n a.
  Proof.
    induction mro as [|z mro IH].
    - cbn. split; [discriminate|]. intros (x & l1 & l2 & cx & E & _). destruct l1; discriminate.
    - change (defs_along reg (z :: mro)) with (match nth_error reg z with Some c => [c_def c] | None => [] end ++ defs_along reg mro).
      destruct (nth_error reg z) as [cz|] eqn:Ez; cbn [app resolve].
      + destruct (aget (d_dict (c_def cz)) n) as [a'|] eqn:E.
        * split.
          -- intros H. inv H. exists z, [], mro, cz. split; [reflexivity|]. do 2 (split; [auto|]). intros y cy [].
          -- intros (x & [|w l1] & l2 & cx & E1 & E2 & E3 & E4); injection E1 as -> ->.
             ++ rewrite Ez in E2. inv E2. congruence.
             ++ specialize (E4 w cz (or_introl eq_refl) Ez). congruence.
        * rewrite IH. split; intros (x & H); exists x.
          -- destruct H as (l1 & l2 & cx & -> & H2 & H3 & H4). exists (z :: l1), l2, cx. split; [reflexivity|].
             do 2 (split; [auto|]). intros y cy [<-|Hy] Hcy; [congruence|eauto].
          -- destruct H as ([|w l1] & l2 & cx & E1 & E2 & E3 & E4); injection E1 as -> ->; [congruence|].
             exists l1, l2, cx. split; [reflexivity|]. do 2 (split; [auto|]). intros y cy Hy. apply E4. right. exact Hy.
      + rewrite IH. split; intros (x & H); exists x.
        * destruct H as (l1 & l2 & cx & -> & H2 & H3 & H4). exists (z :: l1), l2, cx. split; [reflexivity|].
          do 2 (split; [auto|]). intros y cy [<-|Hy] Hcy; [congruence|eauto].
        * destruct H as ([|w l1] & l2 & cx & E1 & E2 & E3 & E4); injection E1 as -> ->; [congruence|].
          exists l1, l2, cx. split; [reflexivity|]. do 2 (split; [auto|]). intros y cy Hy. apply E4. right. exact Hy.
  Qed.
  Lemma aget_In {X} (l : list (name * X)) n a : aget l n = Some a -> In (n, a) l.
  Proof.
    induction l as [|[k v] l IH]; cbn; [discriminate|]. destruct (Nat.eqb_spec k n) as [->|]; [intros H; inv H; auto|auto].
  Qed.
  Lemma In_aget {X} (l : list (name * X)) n a : NoDup (map fst l) -> In (n, a) l -> aget l n = Some a.
  Proof.
    induction l as [|[k v] l IH]; cbn; [intros _ []|]. intros Hnd [E|Hin]; inversion Hnd; subst.
    - inv E. rewrite Nat.eqb_refl. reflexivity.
    - destruct (Nat.eqb_spec k n) as [->|]; [|auto]. exfalso. apply (in_map fst) in Hin. auto.
  Qed.
  Lemma nodup_before (l : list nat) x y l1 l2 : NoDup l -> l = l1 ++ x :: l2 -> before l y x -> In y l1.
  Proof.
    intros Hnd -> (m1 & m2 & E & Hx). revert m1 E. induction l1 as [|z l1 IH]; intros m1 E; cbn in *.
    - inversion Hnd as [|? ? Hn _]; subst. destruct m1 as [|w m1]; cbn in E; injection E as E1 E2; subst.
      + contradiction.
      + exfalso. apply Hn. apply in_app_iff. right. right. exact Hx.
    - inversion Hnd as [|? ? Hn Hnd']; subst. destruct m1 as [|w m1]; cbn in E; injection E as E1 E2; subst; [auto|].
      right. eapply IH; eauto.
  Qed.

  (** The abstract methods of a Module class: the first definition along the MRO is abstract; and if it belongs to a [Module],
      this is all there is to say. (Definitions in ordinary classes count only where a [Module] declares the method as well: see below.) *)
  Theorem C14_methods : forall reg i c, reachable reg ->
    (forall j cj, nth_error reg j = Some cj -> NoDup (map fst (d_dict (c_def cj)))) ->
    nth_error reg i = Some c -> c_kind c = KModule ->
    (forall n, In n (c_abstractmethods c) -> exists x a, definer reg (c_mro c) x n a /\ attr_abstract a = true) /\
    (forall x cx n a, definer reg (c_mro c) x n a -> nth_error reg x = Some cx -> c_kind cx = KModule ->
       (In n (c_abstractmethods c) <-> attr_abstract a = true)).
  Proof.
    intros reg i c HR Hdict. revert c. induction i as [i IH] using lt_wf_ind. intros c Hi Hk.
    destruct (reach_created magic reg HR i c Hi) as [Hlt|(reg0 & rest & Ereg & Hl & Hr & Hb & Hc)].
    { destruct (reach_start_cls magic reg HR) as [H0 H1]. destruct i as [|[|i]]; [| |lia].
      - rewrite H0 in Hi. inv Hi. discriminate.
      - rewrite H1 in Hi. inv Hi. split; [intros n []|].
        intros x cx n a (l1 & l2 & cx' & E1 & E2 & E3 & E4) Hx Hkx. exfalso.
        assert (Hin : In x [1; 0]) by (cbn [c_mro module_cls] in E1; rewrite E1; apply in_app_iff; right; left; reflexivity).
        destruct Hin as [<-|[<-|[]]]; [rewrite H1 in E2|rewrite H0 in E2]; inv E2; discriminate. }
    destruct Hc as [Hc|(sp & _ & Hn)]; [|contradiction].
    pose proof (create_module_inv magic reg0 (c_def c) c Hc) as (_ & _ & HC3 & _ & HA & _).
    assert (Hold : forall x, x < i -> nth_error reg x = nth_error reg0 x).
    { intros x Hx. rewrite Ereg. apply nth_error_app1. lia. }
    destruct (c3_hd _ _ _ _ HC3) as [l EM]. rewrite Hl in EM.
    assert (Htl : forall x, In x l -> exists b cb, In b (d_bases (c_def c)) /\ b < i /\ nth_error reg b = Some cb /\ In x (c_mro cb)).
    { intros x Hx. assert (Hx' : In x (tl (c_mro c))) by (rewrite EM; exact Hx).
      assert (HB : exists b, In b (d_bases (c_def c)) /\ In x (mro_of reg0 b)).
      { destruct (c3_tl _ _ _ _ _ HC3 Hx') as [H|H]; [|exact H].
        exists x. split; [exact H|]. unfold mro_of. destruct (nth_error_ge_ex reg0 x) as [cx Hcx]; [rewrite Hl; auto|].
        rewrite Hcx. destruct (proj2 (reach_wf magic reg0 Hr) _ _ Hcx) as ((m & ->) & _). left. reflexivity. }
      destruct HB as (b & Hbb & Hxb). unfold mro_of in Hxb. destruct (nth_error reg0 b) as [cb|] eqn:Eb; [|destruct Hxb].
      exists b, cb. split; [exact Hbb|]. split; [auto|]. split; [rewrite Hold; auto|exact Hxb]. }
    assert (Hsmall : forall x, In x l -> x < i).
    { intros x Hx. destruct (Htl x Hx) as (b & cb & _ & Hlt & Hcb & Hxb).
      destruct (proj2 (reach_wf magic reg HR) _ _ Hcb) as (_ & H2 & _). specialize (H2 x Hxb). lia. }
    assert (HM : exists fuel, c3_merge fuel (map (mro_of reg0) (d_bases (c_def c)) ++ [d_bases (c_def c)]) = Ok l).
    { unfold c3 in HC3. destruct (c3_merge _ _) as [l'|] eqn:E; [|discriminate]. cbn in HC3. injection HC3 as HC3.
      rewrite EM in HC3. injection HC3 as _ ->. eauto. }
    destruct HM as [fuel HM].
    assert (Hnd : NoDup (c_mro c)).
    { rewrite EM. constructor; [intros H; apply Hsmall in H; lia|]. exact (c3_nodup _ _ _ HM). }
    assert (HD : c_def c :: defs_along reg0 (tl (c_mro c)) = defs_along reg (c_mro c)).
    { rewrite EM. cbn [tl]. unfold defs_along. cbn [flat_map]. rewrite Hi. cbn [app]. f_equal.
      clear -Hold Hsmall. induction l as [|z l IHl]; [reflexivity|]. cbn [flat_map].
      rewrite (Hold z) by (apply Hsmall; left; reflexivity). f_equal. apply IHl. intros x Hx. apply Hsmall. right. exact Hx. }
    rewrite HD in HA.
    assert (HP1 : forall n, In n (c_abstractmethods c) -> exists x a, definer reg (c_mro c) x n a /\ attr_abstract a = true).
    { intros n Hin. rewrite HA in Hin. unfold abstract_methods in Hin. apply in_app_iff in Hin as [Hin|Hin].
      - apply in_map_iff in Hin as ([n' a] & E & Hin). cbn in E. subst n'. apply filter_In in Hin as [Hin Ha].
        exists i, a. split; [|exact Ha]. exists [], l, c. split; [exact EM|]. split; [exact Hi|].
        split; [apply In_aget; [eauto|exact Hin]|]. intros y cy [].
      - apply in_flat_map in Hin as (b & Hbb & Hin). destruct (nth_error reg0 b) as [cb|]; [|destruct Hin].
        apply filter_In in Hin as [_ Hin]. destruct (resolve (defs_along reg (c_mro c)) n) as [a|] eqn:E; [|discriminate].
        apply resolve_definer in E as (x & Hx). eauto. }
    split; [exact HP1|].
    intros x cx n a Hdef Hx Hkx. assert (HRs : resolve (defs_along reg (c_mro c)) n = Some a) by (apply resolve_definer; eauto).
    split.
    { intros Hin. destruct (HP1 n Hin) as (x' & a' & Hdef' & Ha').
      assert (HRs' : resolve (defs_along reg (c_mro c)) n = Some a') by (apply resolve_definer; eauto). congruence. }
    intros Ha. rewrite HA. unfold abstract_methods. apply in_app_iff.
    destruct Hdef as (l1 & l2 & cx' & E1 & E2 & E3 & E4). rewrite Hx in E2. injection E2 as E2. rewrite <- E2 in E3. clear E2 cx'.
    destruct l1 as [|z l1].
    { left. rewrite EM in E1. cbn in E1. assert (Exi : i = x) by congruence. assert (Ecx : cx = c) by congruence. rewrite Ecx in E3.
      apply aget_In in E3. apply in_map_iff. exists (n, a). split; [reflexivity|]. apply filter_In. auto. }
    right. pose proof E1 as E1'. rewrite EM in E1'. cbn in E1'. injection E1' as <- El.
    destruct (Htl x) as (b & cb & Hbb & Hblt & Hcb & Hxb); [rewrite El; apply in_app_iff; right; left; reflexivity|].
    assert (Hkb : c_kind cb = KModule).
    { destruct (c_kind cb) eqn:K; [reflexivity| |].
      all: destruct (plain_mro magic reg HR b cb x Hcb) as (cx' & Hcx & Hn); [congruence|exact Hxb|]; rewrite Hx in Hcx; injection Hcx as <-; contradiction. }
    assert (Hdb : definer reg (c_mro cb) x n a).
    { apply in_split in Hxb as (m1 & m2 & Em). exists m1, m2, cx. split; [exact Em|]. do 2 (split; [auto|]).
      intros y cy Hy Hcy. apply (E4 y cy); [|exact Hcy]. apply (nodup_before (c_mro c) x y (i :: l1) l2 Hnd E1).
      rewrite EM. apply before_cons. apply (c3_merge_before _ _ _ HM (mro_of reg0 b)).
      - apply in_app_iff. left. apply in_map. exact Hbb.
      - unfold mro_of. rewrite <- Hold, Hcb by exact Hblt. rewrite Em. apply in_split in Hy as (y1 & y2 & ->).
        exists y1, (y2 ++ x :: m2). split; [rewrite <- app_assoc; reflexivity|]. apply in_app_iff. right. left. reflexivity. }
    apply in_flat_map. exists b. split; [exact Hbb|]. rewrite <- Hold, Hcb by exact Hblt. apply filter_In. split.
    - apply (proj2 (IH b Hblt cb Hcb Hkb) x cx n a Hdb Hx Hkx). exact Ha.
    - rewrite HRs. exact Ha.
  Qed.
End Methods.
Print Assumptions C14_methods.

(** Class 2 is an ordinary class with an abstract method 0; class 3 is a [Module] with an abstract method 0; class 4 derives from [Module]
    and 2; class 5 from 2 and 3; class 6 from 3, defining the method; class 7 from 2 and 6. *)
Definition ex_methods : list (bool * cdef) :=
  [(false, mk [0] [] [(0, Fun true)] None); (true, mk [1] [] [(0, Fun true)] None); (true, mk [1; 2] [] [] None);
   (true, mk [2; 3] [] [] None); (true, mk [3] [] [(0, Fun false)] None); (true, mk [2; 6] [] [] None)].
Fixpoint define_all (ds : list (bool * cdef)) (reg : registry) : res registry :=
  match ds with
  | [] => Ok reg
  | (m, d) :: ds' => c <- (if m then create_module no_magic reg d else create_plain false reg d) ;; define_all ds' (reg ++ [c])
  end.
Example C14_ex_methods : rmap (map c_abstractmethods) (define_all ex_methods start) = Ok [[]; []; []; [0]; []; [0]; []; []].
Proof. reflexivity. Qed.
(** Such a program builds a reachable registry if bases exist and the classes with a [Module] among their bases are [Module]s. *)
Fixpoint sound (ds : list (bool * cdef)) (reg : registry) : bool :=
  match ds with
  | [] => true
  | (m, d) :: ds' => forallb (fun b => Nat.ltb b (length reg)) (d_bases d) && Bool.eqb (existsb (is_module reg) (d_bases d)) m &&
      match (if m then create_module no_magic reg d else create_plain false reg d) with Ok c => sound ds' (reg ++ [c]) | Err _ => true end
  end.
Lemma define_reachable ds : forall reg reg', reachable no_magic reg -> sound ds reg = true -> define_all ds reg = Ok reg' -> reachable no_magic reg'.
Proof.
  induction ds as [|[m d] ds IH]; intros reg reg' HR HS H; [injection H as <-; exact HR|].
  cbn [sound define_all] in *. rewrite !andb_true_iff in HS. destruct HS as [[HB HM] HS]. apply Bool.eqb_prop in HM.
  rewrite forallb_forall in HB. assert (HB' : forall b, In b (d_bases d) -> b < length reg) by (intros b Hb; apply Nat.ltb_lt; auto).
  destruct m.
  - destruct (create_module no_magic reg d) as [c|] eqn:E; cbn [bind] in H; [|discriminate].
    exact (IH _ _ (reach_module no_magic reg d c HR HB' HM E) HS H).
  - destruct (create_plain false reg d) as [c|] eqn:E; cbn [bind] in H; [|discriminate].
    exact (IH _ _ (reach_plain no_magic reg false d c HR HB' HM E) HS H).
Qed.

(** An abstract method of an ordinary class does not keep a [Module] that derives from it from being instantiated, though it is the
    definition found along the MRO. *)
Theorem C14_mixin_refuted : exists reg c a, reachable no_magic reg /\ nth_error reg 4 = Some c /\ c_kind c = KModule /\
  definer reg (c_mro c) 2 0 a /\ attr_abstract a = true /\ snd (instantiate c (Ok tt)) = Ok tt.
Proof.
  destruct (define_all ex_methods start) as [reg|e] eqn:E; [|discriminate].
  assert (HR : reachable no_magic reg) by (exact (define_reachable ex_methods start reg (reach_start _) eq_refl E)).
  vm_compute in E. injection E as <-. eexists _, _, _. split; [exact HR|]. split; [reflexivity|]. split; [reflexivity|].
  split; [|split; [|reflexivity]].
  - exists [4; 1], [0]. eexists. split; [reflexivity|]. split; [reflexivity|]. split; [reflexivity|].
    intros y cy [<-|[<-|[]]] Hy; cbn in Hy; injection Hy as <-; reflexivity.
  - reflexivity.
Qed.
Print Assumptions C14_mixin_refuted.
