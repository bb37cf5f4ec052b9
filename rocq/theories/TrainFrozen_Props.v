(** C103: training with frozen layers. *)
From Verif Require Import Filters_Proofs Tree_Rel Prim_Spec Prim_Proofs Leafwise Ad_Model Ad_Props Train_Model Train_Spec Train_Props.

Definition sbool {A} (s : spec_leaf A) : bool := match s with SBool _ => true | _ => false end.

Section Merge.
  Context {L : Type}.
  Variable inexact : L -> bool.
  Notation T := (tree L).
  Notation sels := (tmap2 no_leaf (sel_leaf no_leaf (fun (m : bool) (s : T) => if m then s else TNone))).
  Notation selr := (tmap2 no_leaf (sel_leaf no_leaf (fun (m : bool) (s : T) => if m then TNone else s))).

  Lemma merges_combine :
    (forall d s m : T, merges d s m -> eqx_combine no_leaf [d; s] = Ok m) /\
    (forall ds ss ms : list T, merges_list ds ss ms ->
       zipM (tmap2 (fun x => is_none x || no_leaf x) comb2) ds ss = Ok ms).
  Proof.
    apply merges_mut; try reflexivity.
    - intros k ds ss ms _ IH. rewrite combine_two. cbn [tmap2 is_none no_leaf orb]. rewrite Nat.eqb_refl, IH. reflexivity.
    - intros d ds s ss m ms _ IH1 _ IH2. rewrite combine_two in IH1. cbn [zipM]. rewrite IH1, IH2. reflexivity.
  Qed.

  (** Selecting by Booleans. *)
  Definition blank (t : T) : T := lw (fun _ => TNone) t.
  Lemma sel_true (m : T) : tmap no_leaf (fun s => s) m = m.
  Proof. rewrite tmap_lw. apply lw_id. Qed.
  Lemma sel_false (m : T) : tmap no_leaf (fun _ => TNone) m = blank m.
  Proof. apply tmap_lw. Qed.
  Lemma blank_def (m m' : T) : treedef no_leaf m = treedef no_leaf m' -> blank m = blank m'.
  Proof.
    revert m'. induction m as [a| |k cs IH] using tree_ind'; intros [b| |k' cs'] H; try discriminate; [reflexivity|reflexivity|].
    cbn [treedef no_leaf] in H. injection H as <- H. cbn. f_equal. revert cs' H.
    induction IH as [|c cs Hc _ IHcs]; intros [|c' cs'] H; try discriminate; [reflexivity|]. injection H as H1 H2.
    cbn. f_equal; [apply Hc; exact H1|apply IHcs; exact H2].
  Qed.
  Lemma merge_left (m : T) : merges m (blank m) m.
  Proof.
    induction m as [a| |k cs IH] using tree_ind'; [constructor|constructor|]. constructor.
    induction IH; cbn; constructor; auto.
  Qed.
  Lemma merge_right (m : T) : merges (blank m) m m.
  Proof.
    induction m as [a| |k cs IH] using tree_ind'; [constructor|constructor|]. constructor.
    induction IH; cbn; constructor; auto.
  Qed.
  Lemma partition_merges spec : forall m d st : T, sels spec m = Ok d -> selr spec m = Ok st -> merges d st m.
  Proof.
    induction spec as [s| |k ss IH] using tree_ind'; intros m d st H1 H2.
    - cbn [tmap2 no_leaf sel_leaf] in *. destruct s as [[]|g|]; try discriminate.
      + assert (d = m) by (rewrite sel_true in H1; congruence). assert (st = blank m) by (rewrite sel_false in H2; congruence). subst. apply merge_left.
      + assert (d = blank m) by (rewrite sel_false in H1; congruence). assert (st = m) by (rewrite sel_true in H2; congruence). subst. apply merge_right.
      + injection H1 as <-. injection H2 as <-. rewrite !tmap_lw. induction m as [a| |k cs IH] using tree_ind'; cbn; [destruct (g (Leaf a)); constructor|constructor|].
        constructor. induction IH; cbn; constructor; auto.
    - destruct m; try discriminate. injection H1 as <-. injection H2 as <-. constructor.
    - destruct m as [a| |k' cs]; try discriminate. cbn [tmap2 no_leaf] in *. destruct (Nat.eqb_spec k k') as [<-|]; [|discriminate].
      apply rmap_ok in H1 as (ds & H1 & ->). apply rmap_ok in H2 as (sts & H2 & ->). constructor.
      revert cs ds sts H1 H2. induction IH as [|s ss Hs _ IHs]; intros [|c cs] ds sts H1 H2; try discriminate.
      + injection H1 as <-. injection H2 as <-. constructor.
      + cbn [zipM] in *. apply bind_ok in H1 as (d & D1 & H1). apply bind_ok in H1 as (ds' & D2 & H1). injection H1 as <-.
        apply bind_ok in H2 as (t & S1 & H2). apply bind_ok in H2 as (ts & S2 & H2). injection H2 as <-.
        constructor; eauto.
  Qed.
  (** Same structure as [m] on the left, nothing on the right: the left is the whole. *)
  Lemma merges_all : forall m d m' : T, treedef no_leaf d = treedef no_leaf m -> merges d (blank m) m' -> m' = d.
  Proof.
    induction m as [a| |k cs IH] using tree_ind'; intros d m' E H; cbn [blank lw] in H.
    - destruct d; try discriminate. inversion H; reflexivity.
    - destruct d; try discriminate. inversion H; reflexivity.
    - destruct d as [| |k' ds]; try discriminate. cbn [treedef no_leaf] in E. injection E as -> E. inversion H as [| | |? ? ? ms HM]; subst. f_equal.
      clear H. revert ds ms E HM. induction IH as [|c cs Hc _ IHcs]; intros [|d ds] ms E HM; try discriminate; inversion HM; subst; [reflexivity|].
      injection E as E1 E2. f_equal; eauto.
  Qed.
  Lemma merges_nothing : forall m d m' : T, treedef no_leaf d = treedef no_leaf (blank m) -> merges d m m' -> m' = m /\ d = blank m.
  Proof.
    induction m as [a| |k cs IH] using tree_ind'; intros d m' E H; cbn [blank lw] in *.
    - destruct d; try discriminate. inversion H; auto.
    - destruct d; try discriminate. inversion H; auto.
    - destruct d as [| |k' ds]; try discriminate. cbn [treedef no_leaf] in E. injection E as -> E. inversion H as [| | |? ? ? ms HM]; subst.
      enough (G : ms = cs /\ ds = map blank cs) by (destruct G as [-> ->]; split; reflexivity).
      clear H. revert ds ms E HM. induction IH as [|c cs Hc _ IHcs]; intros [|d ds] ms E HM; try discriminate; inversion HM; subst; [auto|].
      injection E as E1 E2. destruct (Hc d m E1) as [-> ->]; [assumption|]. destruct (IHcs ds ms0 E2) as [-> ->]; [assumption|]. auto.
  Qed.
  (** Partitioning the model with other selected leaves. *)
  Lemma partition_again spec : is_true_false spec sbool -> forall m d st d' m' : T,
    sels spec m = Ok d -> selr spec m = Ok st -> treedef no_leaf d' = treedef no_leaf d -> merges d' st m' ->
    sels spec m' = Ok d' /\ selr spec m' = Ok st.
  Proof.
    induction spec as [s| |k ss IH] using tree_ind'; intros HB m d st d' m' H1 H2 E H.
    - cbn [tmap2 no_leaf sel_leaf] in *. destruct s as [[]|g|].
      + assert (d = m) by (rewrite sel_true in H1; congruence). assert (st = blank m) by (rewrite sel_false in H2; congruence). subst.
        apply (merges_all _ _ _ E) in H. subst m'. rewrite sel_true, sel_false. rewrite (blank_def _ _ E). auto.
      + assert (d = blank m) by (rewrite sel_false in H1; congruence). assert (st = m) by (rewrite sel_true in H2; congruence). subst.
        destruct (merges_nothing _ _ _ E H) as [-> ->]. rewrite sel_true, sel_false. auto.
      + specialize (HB (SCall g) (or_introl eq_refl)). discriminate.
      + discriminate.
    - destruct m; try discriminate. injection H1 as <-. injection H2 as <-. destruct d'; try discriminate. inversion H; subst. auto.
    - destruct m as [a| |k' cs]; try discriminate. cbn [tmap2 no_leaf] in *. destruct (Nat.eqb_spec k k') as [<-|]; [|discriminate].
      apply rmap_ok in H1 as (ds & H1 & ->). apply rmap_ok in H2 as (sts & H2 & ->).
      destruct d' as [| |k2 ds']; try discriminate. cbn [treedef no_leaf] in E. injection E as -> E. inversion H as [| | |? ? ? ms HM]; subst.
      rewrite Nat.eqb_refl.
      enough (G : zipM sels ss ms = Ok ds' /\ zipM selr ss ms = Ok sts) by (destruct G as [-> ->]; auto).
      assert (HB' : Forall (fun s => is_true_false s sbool) ss).
      { rewrite Forall_forall. intros s Hs a Ha. apply HB. cbn [leaves no_leaf]. apply in_concat. exists (leaves no_leaf s). split; [apply in_map; exact Hs|exact Ha]. }
      clear HB H. revert cs ds sts ds' ms H1 H2 E HM. induction IH as [|s ss Hs _ IHs]; intros [|c cs] ds sts ds' ms H1 H2 E HM; try discriminate.
      + injection H1 as <-. injection H2 as <-. destruct ds'; [|discriminate]. inversion HM; subst. auto.
      + cbn [zipM] in *. apply bind_ok in H1 as (d & D1 & H1). apply bind_ok in H1 as (ds1 & D2 & H1). injection H1 as <-.
        apply bind_ok in H2 as (t & S1 & H2). apply bind_ok in H2 as (ts & S2 & H2). injection H2 as <-.
        inversion HB'; subst. destruct ds' as [|d' ds']; [discriminate|]. injection E as E1 E2. inversion HM; subst.
        destruct (Hs ltac:(assumption) c d t d' m D1 S1 E1 ltac:(assumption)) as [-> ->].
        destruct (IHs ltac:(assumption) cs ds1 ts ds' ms0 D2 S2 E2 ltac:(assumption)) as [-> ->]. auto.
  Qed.

  (** Updates of the selected part. *)
  Variable add : T -> T -> res T.
  Hypothesis Hadd : add_law inexact add.
  Lemma apply_merges :
    (forall d st m : T, merges d st m -> forall us u, laid_out inexact d us u -> Forall is_Leaf us ->
       match apply_updates add d u with
       | Ok d1 => exists m1, apply_updates add m u = Ok m1 /\ merges d1 st m1
       | Err e => apply_updates add m u = Err e
       end) /\
    (forall ds sts ms : list T, merges_list ds sts ms -> forall us ts, fills_list inexact (fun _ => TNone) ds us ts -> Forall is_Leaf us ->
       match zipM (tmap2 is_none (apply_update add)) ts ds with
       | Ok d1 => exists m1, zipM (tmap2 is_none (apply_update add)) ts ms = Ok m1 /\ merges_list d1 sts m1
       | Err e => zipM (tmap2 is_none (apply_update add)) ts ms = Err e
       end).
  Proof.
    unfold laid_out, apply_updates. apply merges_mut.
    - intros a us u H Hu. inversion H as [? ? Ha|? Ha| |]; subst.
      + inversion Hu as [|? ? [b ->] _]; subst. cbn. destruct (add (Leaf a) (Leaf b)) as [x|e] eqn:E; [|reflexivity]. exists x. split; [reflexivity|].
        destruct (Hadd (Leaf a) (Leaf b) x) as (c & -> & _); [exists a; auto|exists b; auto|exact E|constructor].
      + cbn. exists (Leaf a). split; [reflexivity|constructor].
    - intros a us u H Hu. inversion H; subst. cbn. exists (Leaf a). split; [reflexivity|constructor].
    - intros us u H Hu. inversion H; subst. cbn. exists TNone. split; [reflexivity|constructor].
    - intros k ds sts ms _ IH us u H Hu. inversion H as [| | |? ? ? ts HT]; subst. specialize (IH us ts HT Hu).
      cbn [tmap2 is_none]. rewrite Nat.eqb_refl. destruct (zipM _ ts ds) as [d1|e]; cbn [rmap].
      + destruct IH as (m1 & -> & HM). exists (Node k m1). split; [reflexivity|constructor; exact HM].
      + rewrite IH. reflexivity.
    - intros us ts H Hu. inversion H; subst. cbn. exists []. split; [reflexivity|constructor].
    - intros d ds st sts m ms _ IH1 _ IH2 us ts H Hu. inversion H as [|? ? v vs t ts' HT HTS]; subst. apply Forall_app in Hu as [Hu1 Hu2].
      specialize (IH1 v t HT Hu1). specialize (IH2 vs ts' HTS Hu2). cbn [zipM]. destruct (tmap2 is_none _ t d) as [d1|e]; cbn [bind].
      + destruct IH1 as (m1 & -> & M1). cbn [bind]. destruct (zipM _ ts' ds) as [ds1|e]; cbn [bind].
        * destruct IH2 as (ms1 & -> & M2). exists (m1 :: ms1). split; [reflexivity|constructor; assumption].
        * rewrite IH2. reflexivity.
      + rewrite IH1. reflexivity.
  Qed.
  Lemma merges_sub :
    (forall d st m : T, merges d st m -> forall p a, sub st p = Some (Leaf a) -> sub m p = Some (Leaf a)) /\
    (forall ds sts ms : list T, merges_list ds sts ms -> forall i s p a, nth_error sts i = Some s -> sub s p = Some (Leaf a) ->
       exists m, nth_error ms i = Some m /\ sub m p = Some (Leaf a)).
  Proof.
    apply merges_mut.
    - intros a [|i p] b H; discriminate.
    - intros a [|i p] b H; [exact H|discriminate].
    - intros [|i p] b H; discriminate.
    - intros k ds sts ms _ IH [|i p] a H; [discriminate|]. cbn [sub] in *. destruct (nth_error sts i) as [s|] eqn:E; [|discriminate].
      destruct (IH i s p a E H) as (m & -> & Hm). exact Hm.
    - intros [|i] s p a H; discriminate.
    - intros d ds st sts m ms _ IH1 _ IH2 [|i] s p a H1 H2; cbn [nth_error] in *; [|eauto]. injection H1 as <-. exists m. auto.
  Qed.
End Merge.

Section Frozen.
  Context {L St : Type}.
  Variable inexact : L -> bool.
  Notation T := (tree L).
  Variable VG : bool -> (list T -> res T) -> list T -> res (T * list T).
  Variable opt : list T -> St -> option (list T) -> res (list T * St).
  Variable add : T -> T -> res T.
  Variable kwargs : T.
  Hypothesis HVG : grad_law inexact VG.
  Hypothesis Hopt : opt_law opt.
  Hypothesis Hadd : add_law inexact add.

  (** Training with a specification of what is to be trained is training the selected part of the model alone,
      with the loss of the whole of which the rest is fixed. The result is the trained part merged with the rest. *)
  Theorem C103_frozen : forall loss spec model diff static s data,
    is_true_false spec sbool -> eqx_partition no_leaf TNone model spec = Ok (diff, static) ->
    match train inexact VG opt add kwargs (fun d rest => m <- eqx_combine no_leaf [d; static] ;; loss m rest) None diff s data with
    | Ok (diff', s', _) => exists model', merges diff' static model' /\
        frozen_train inexact VG opt add kwargs loss spec model s data = Ok (model', s')
    | Err e => frozen_train inexact VG opt add kwargs loss spec model s data = Err e
    end.
  Proof.
    intros loss spec model diff static s data HB HP. apply partition_fused in HP as [P1 P2].
    pose proof (partition_merges _ _ _ _ P1 P2) as HM. revert model diff s HM P1 P2.
    set (loss' := fun d rest => m <- eqx_combine no_leaf [d; static] ;; loss m rest).
    induction data as [|b data IH]; intros m d s HM P1 P2; [exists m; auto|].
    cbn [train frozen_train]. unfold make_step, frozen_step.
    rewrite (proj2 (partition_fused _ _ _ _ _ _) (conj P1 P2)). cbn [bind]. unfold filter_grad.
    change (filter_value_and_grad inexact VG false (frozen_loss loss) (d :: static :: b) kwargs)
      with (filter_value_and_grad inexact VG false loss' (d :: b) kwargs).
    pose proof (grad_at inexact VG kwargs HVG loss' d (wrt inexact d) d false b (fills_self _ _) (wrt_param _ _)) as A.
    destruct (VG false _ (wrt inexact d)) as [[v gs]|e]; [|rewrite A; reflexivity].
    destruct A as (gt & G1 & G2 & ->). cbn [bind params_of].
    pose proof (update_at inexact opt Hopt d gs gt s None G1 G2 I) as B. cbn [option_map] in B.
    destruct (opt gs s None) as [[us s1]|e]; [|rewrite B; reflexivity].
    destruct B as (u & U1 & U2 & U3 & ->). cbn [bind].
    pose proof (proj1 (apply_merges inexact add Hadd) d static m HM us u U1 U2) as C.
    pose proof (apply_at inexact add Hadd d (wrt inexact d) d us u (fills_self _ _) (wrt_param _ _) U1 U2) as D.
    destruct (adds add (wrt inexact d) us) as [ws1|e]; [|rewrite D in *; cbn [bind]; rewrite C; reflexivity].
    destruct D as (d1 & D1 & D2 & D3). rewrite D3 in *. destruct C as (m1 & -> & M1). cbn [bind].
    pose proof (proj1 (proj1 (fills_positions inexact) _ _ _ D1 D2)) as E.
    destruct (partition_again spec HB m d static d1 m1 P1 P2 E M1) as [Q1 Q2].
    specialize (IH m1 d1 s1 M1 Q1 Q2). destruct (train _ _ _ _ _ loss' None d1 s1 data) as [[[d2 s2] vs]|e]; cbn [bind]; exact IH.
  Qed.
  (** Leaves that are not selected are as before after any number of steps, and so is everything that is not an inexact array. *)
  Theorem C103_unchanged : forall loss spec model diff static s data model' s',
    is_true_false spec sbool -> eqx_partition no_leaf TNone model spec = Ok (diff, static) ->
    frozen_train inexact VG opt add kwargs loss spec model s data = Ok (model', s') ->
    (exists diff', eqx_partition no_leaf TNone model' spec = Ok (diff', static)) /\
    (forall p a, sub static p = Some (Leaf a) -> sub model p = Some (Leaf a) /\ sub model' p = Some (Leaf a)) /\
    (forall p a, sub diff p = Some (Leaf a) -> inexact a = false -> sub model' p = Some (Leaf a)).
  Proof.
    intros loss spec m d st s data m' s' HB HP H. pose proof (C103_frozen loss spec m d st s data HB HP) as A.
    destruct (train _ _ _ _ _ _ None d s data) as [[[d' s2] vs]|e] eqn:E; [|congruence].
    destruct A as (m2 & M & F). assert (m2 = m') by congruence. subst m2. apply partition_fused in HP as [P1 P2].
    destruct (C102_other_leaves inexact VG opt add kwargs HVG Hopt Hadd _ false _ _ _ _ _ _ E) as (T1 & _ & T2).
    destruct (partition_again spec HB m d st d' m' P1 P2 T1 M) as [Q1 Q2].
    pose proof (partition_merges _ _ _ _ P1 P2) as M0. split; [|split].
    - exists d'. apply partition_fused. auto.
    - intros p a Hp. split; [exact (proj1 merges_sub _ _ _ M0 p a Hp)|exact (proj1 merges_sub _ _ _ M p a Hp)].
    - intros p a Hp Hi. specialize (T2 p a Hp). rewrite Hi in T2.
      assert (Sym : (forall d st m : T, merges d st m -> merges st d m) /\ (forall ds ss ms : list T, merges_list ds ss ms -> merges_list ss ds ms)).
      { apply merges_mut; intros; constructor; assumption. }
      exact (proj1 merges_sub _ _ _ (proj1 Sym _ _ _ M) p a T2).
  Qed.
End Frozen.
Print Assumptions C103_frozen.
Print Assumptions C103_unchanged.

(** Only the second float is trained. *)
Definition exspec : tree (spec_leaf exleaf) := Node 3 [Leaf (SBool false); Leaf (SBool false); Leaf (SBool true)].
Example C103_ex :
  is_true_false exspec sbool /\
  eqx_partition no_leaf TNone (exmodel 5 2) exspec = Ok (Node 3 [TNone; TNone; Node 4 [Leaf (Fn 1); TNone; Leaf (Fl 2)]], Node 3 [Leaf (Fl 5); Leaf (It 7); Node 4 [TNone; TNone; TNone]]) /\
  frozen_train exinexact exVG exopt exadd (Node 1 []) exloss exspec (exmodel 5 2) 0 [[Leaf (Fl 1)]; [Leaf (Fl 2)]] = Ok (exmodel 5 0, 2).
Proof.
  split; [|split; reflexivity]. intros a H. cbn in H. repeat destruct H as [H|H]; try contradiction; injection H as <-; reflexivity.
Qed.
(** A callable specification may select other leaves after a step: the arrays that are positive, say. *)
Example C103_callable_ex :
  let positive := fun t : tree exleaf => match t with Leaf (Fl z) => Z.ltb 0 z | _ => false end in
  frozen_train exinexact exVG exopt exadd (Node 1 []) exloss (Leaf (SCall positive)) (exmodel 5 1) 0 [[Leaf (Fl 1)]; [Leaf (Fl 2)]] = Ok (exmodel 2 0, 2).
Proof. reflexivity. Qed.
