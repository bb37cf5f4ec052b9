(** Property C101: saving to and loading from named files. *)
From Verif Require Import SerialFile_Spec Serial_Proofs Serial_Props.
Local Open Scope string_scope.
Local Open Scope list_scope.
Local Open Scope nat_scope.

(** ** Names *)
Lemma rdot_spec s : match rdot s with Some (a, b) => s = (a ++ "." ++ b)%string /\ dotless b | None => dotless s end.
Proof.
  induction s as [|c s IH]; cbn [rdot]; [exact I|]. destruct (rdot s) as [[a b]|].
  - destruct IH as [-> H]. split; auto.
  - destruct (Ascii.eqb_spec c ".") as [->|N]; [split; auto|]. cbn. auto.
Qed.
Lemma dotless_app a b : dotless (a ++ b) <-> dotless a /\ dotless b.
Proof. induction a; cbn; tauto. Qed.
Lemma dot_split a b a' b' : (a ++ "." ++ b)%string = (a' ++ "." ++ b')%string -> dotless b -> dotless b' -> a = a' /\ b = b'.
Proof.
  revert a'. induction a as [|c a IH]; intros [|c' a']; cbn; intros E Hb Hb'; inversion E; subst; auto.
  - apply dotless_app in Hb as [_ [H _]]. congruence.
  - apply dotless_app in Hb' as [_ [H _]]. congruence.
  - destruct (IH a') as [-> ->]; auto.
Qed.
Lemma last_app {A} (l : list A) x d : last (l ++ [x]) d = x.
Proof. induction l as [|a l IH]; [auto|]. cbn [app last]. rewrite IH. destruct (l ++ [x]) eqn:E; [destruct l; discriminate|auto]. Qed.
Lemma suffix_extended p : suffix p <> "" <-> extended (name p).
Proof.
  unfold suffix, extended. pose proof (rdot_spec (name p)) as H. destruct (rdot (name p)) as [[a b]|].
  - destruct H as [E H]. split.
    + intros N. destruct a; [congruence|]. destruct b; [congruence|]. eexists _, _. split; [exact E|]. split; [discriminate|]. split; [discriminate|auto].
    + intros (a' & b' & E' & Ha & Hb & Hd). rewrite E in E'. destruct (dot_split _ _ _ _ E' H Hd) as [-> ->].
      destruct a'; [congruence|]. destruct b'; [congruence|]. discriminate.
  - split; [congruence|]. intros (a & b & E & _). rewrite E in H. apply dotless_app in H as [_ [H _]]. congruence.
Qed.
Lemma string_app_ne a b : b <> "" -> (a ++ b)%string <> "".
Proof. destruct a; [auto|discriminate]. Qed.
Lemma eqx_extended n : n <> "" -> extended (n ++ ".eqx").
Proof. intros H. exists n, "eqx". split; [auto|]. split; [auto|]. split; [discriminate|]. cbn. repeat split; discriminate. Qed.

(** A name with an extension is kept and any other name is given the extension [.eqx]; the directory
    stays. Paths without a name, such as the root, are refused. *)
Theorem C101_suffix : forall r dir n, n <> "" ->
  (extended n -> with_suffix (at_dir r dir n) = Ok (at_dir r dir n)) /\
  (~ extended n -> with_suffix (at_dir r dir n) = Ok (at_dir r dir (n ++ ".eqx"))).
Proof.
  intros r dir n Hn. assert (EN : name (at_dir r dir n) = n) by apply last_app.
  pose proof (suffix_extended (at_dir r dir n)) as HS. rewrite EN in HS. unfold with_suffix.
  destruct (String.eqb_spec (suffix (at_dir r dir n)) "") as [E|E]; split; intros H.
  - apply HS in H. contradiction.
  - unfold add_eqx. rewrite EN. destruct (String.eqb_spec n ""); [contradiction|]. cbn [at_dir root parts]. rewrite removelast_last. auto.
  - auto.
  - apply HS in E. contradiction.
Qed.
Print Assumptions C101_suffix.
Theorem C101_no_name : forall p, with_suffix p = Err ValueError <-> name p = "".
Proof.
  intros p. unfold with_suffix. split.
  - destruct (String.eqb (suffix p) ""); [|discriminate]. unfold add_eqx. destruct (String.eqb_spec (name p) ""); [auto|discriminate].
  - intros E. assert (ES : suffix p = "") by (unfold suffix; rewrite E; auto). rewrite ES. cbn. unfold add_eqx. rewrite E. auto.
Qed.
Print Assumptions C101_no_name.

Lemma at_dir_of p : name p <> "" -> p = at_dir (root p) (removelast (parts p)) (name p).
Proof.
  intros H. destruct p as [r l]. unfold at_dir, name in *. cbn [root parts] in *. f_equal. apply app_removelast_last.
  intros ->. apply H. auto.
Qed.
Lemma ext_dec n : extended n \/ ~ extended n.
Proof.
  pose proof (suffix_extended {| root := 0; parts := [n] |}) as H. change (name {| root := 0; parts := [n] |}) with n in H.
  destruct (string_dec (suffix {| root := 0; parts := [n] |}) "") as [E|E]; [right; intros X; apply H in X; auto|left; tauto].
Qed.
Lemma with_suffix_out p q : with_suffix p = Ok q -> extended (name q).
Proof.
  intros H. assert (HN : name p <> "").
  { intros E. apply C101_no_name in E. congruence. }
  rewrite (at_dir_of p HN) in H. destruct (C101_suffix (root p) (removelast (parts p)) (name p) HN) as [H1 H2].
  destruct (ext_dec (name p)) as [X|X]; [rewrite (H1 X) in H|rewrite (H2 X) in H]; injection H as <-; unfold name at 1; cbn [at_dir parts]; rewrite last_app;
    [auto|apply eqx_extended; auto].
Qed.
(** Completing a name twice is completing it once: the file that was written may be named in full. *)
Theorem C101_full_name : forall p q, with_suffix p = Ok q -> with_suffix q = Ok q.
Proof.
  intros p q H. apply with_suffix_out in H. apply suffix_extended in H. unfold with_suffix. destruct (String.eqb_spec (suffix q) ""); [contradiction|auto].
Qed.
Print Assumptions C101_full_name.
(** Two names mean the same file exactly if they are equal or one of them is the other with [.eqx]. *)
Lemma app_eqx_inj a b : (a ++ ".eqx")%string = (b ++ ".eqx")%string -> a = b.
Proof. intros H. apply (dot_split a "eqx" b "eqx") in H; [tauto| |]; cbn; repeat split; discriminate. Qed.
Theorem C101_same_file : forall r r' dir dir' n n', n <> "" -> n' <> "" ->
  (with_suffix (at_dir r dir n) = with_suffix (at_dir r' dir' n') <->
   r = r' /\ dir = dir' /\ (n = n' \/ (~ extended n /\ n' = (n ++ ".eqx")%string) \/ (~ extended n' /\ n = (n' ++ ".eqx")%string))).
Proof.
  intros r r' dir dir' n n' Hn Hn'. destruct (C101_suffix r dir n Hn) as [A1 A2], (C101_suffix r' dir' n' Hn') as [B1 B2].
  assert (HI : forall a b, at_dir r dir a = at_dir r' dir' b -> r = r' /\ dir = dir' /\ a = b).
  { intros a b E. unfold at_dir in E. injection E as E1 E2. apply app_inj_tail in E2. tauto. }
  split.
  - intros E. destruct (ext_dec n) as [X|X], (ext_dec n') as [Y|Y].
    + rewrite (A1 X), (B1 Y) in E. assert (E' : at_dir r dir n = at_dir r' dir' n') by congruence. apply HI in E'. tauto.
    + rewrite (A1 X), (B2 Y) in E. assert (E' : at_dir r dir n = at_dir r' dir' (n' ++ ".eqx")) by congruence. apply HI in E'. tauto.
    + rewrite (A2 X), (B1 Y) in E. assert (E' : at_dir r dir (n ++ ".eqx") = at_dir r' dir' n') by congruence. apply HI in E' as (-> & -> & E'). symmetry in E'. auto 6.
    + rewrite (A2 X), (B2 Y) in E. assert (E' : at_dir r dir (n ++ ".eqx") = at_dir r' dir' (n' ++ ".eqx")) by congruence.
      apply HI in E' as (-> & -> & E'). apply app_eqx_inj in E'. auto.
  - intros (<- & <- & [<-|[[X ->]|[X ->]]]); auto.
    + rewrite (A2 X), B1; auto using eqx_extended.
    + rewrite (B2 X), A1; auto using eqx_extended.
Qed.
Print Assumptions C101_same_file.

Example C101_names :
  map (fun s => with_suffix (parse s)) ["model"; "a//b/./model/"; "/x/model.pkl"; "run.v2/.hidden"; "model."; "/"; ".."; "v1.2"] =
  [Ok {| root := 0; parts := ["model.eqx"] |}; Ok {| root := 0; parts := ["a"; "b"; "model.eqx"] |};
   Ok {| root := 1; parts := ["x"; "model.pkl"] |}; Ok {| root := 0; parts := ["run.v2"; ".hidden.eqx"] |};
   Ok {| root := 0; parts := ["model..eqx"] |}; Err ValueError; Ok {| root := 0; parts := ["...eqx"] |}; Ok {| root := 0; parts := ["v1.2"] |}].
Proof. reflexivity. Qed.
(** Every part that [parse] yields is a name. *)
Theorem C101_parse : forall s n, In n (parts (parse s)) -> n <> "" /\ n <> "." /\ ~ In "/"%char (list_ascii_of_string n).
Proof.
  intros s n H. cbn [parse parts] in H. apply filter_In in H as [H1 H2]. apply negb_true_iff, orb_false_iff in H2 as [E1 E2].
  split; [apply String.eqb_neq; auto|]. split; [apply String.eqb_neq; auto|]. clear E1 E2. revert n H1.
  induction s as [|c s IH]; cbn [split_path]; intros n H.
  - destruct H as [<-|[]]. auto.
  - unfold slash in H. destruct (Ascii.eqb_spec c "/") as [->|N].
    + destruct H as [<-|H]; [intros []|auto].
    + destruct (split_path s) as [|h t]; [destruct H|]. destruct H as [<-|H]; [|apply IH; right; auto].
      cbn. intros [E|E]; [congruence|]. revert E. apply IH. left. auto.
Qed.
Print Assumptions C101_parse.
(** Leading slashes change only the root: one slash, or more than two, mean the same directory; exactly two mean another. *)
Definition unrooted (s : string) : Prop := match s with String c _ => c <> "/"%char | EmptyString => True end.
Fixpoint slashes (n : nat) (s : string) : string := match n with O => s | S n' => String "/" (slashes n' s) end.
Theorem C101_root : forall n s, unrooted s -> parts (parse (slashes n s)) = parts (parse s) /\
  root (parse (slashes n s)) = (if Nat.eqb n 0 then 0 else if Nat.eqb n 2 then 2 else 1)%nat.
Proof.
  intros n s Hs. split.
  - induction n as [|n IH]; [reflexivity|]. rewrite <- IH. reflexivity.
  - cbn [parse root].
    assert (H0 : forall n', (match slashes n' s with String c _ => slash c | EmptyString => false end) = negb (Nat.eqb n' 0)).
    { intros [|n']; [|reflexivity]. cbn. destruct s as [|c s]; [reflexivity|]. cbn in Hs. unfold slash. apply Ascii.eqb_neq. exact Hs. }
    destruct n as [|[|[|n]]].
    + specialize (H0 0%nat). cbn [slashes] in *. unfold root_of. destruct s as [|c s]; [reflexivity|]. rewrite H0. reflexivity.
    + specialize (H0 0%nat). cbn [slashes] in *. unfold root_of. cbn [slash Ascii.eqb]. destruct s as [|c s]; [reflexivity|]. rewrite H0. reflexivity.
    + specialize (H0 0%nat). cbn [slashes] in *. unfold root_of. destruct s as [|c s]; [reflexivity|]. rewrite H0. reflexivity.
    + reflexivity.
Qed.
Print Assumptions C101_root.
Example C101_root_ex : parse "/a" = parse "///a" /\ parse "/a" <> parse "//a" /\ parts (parse "//a") = ["a"].
Proof. split; [reflexivity|]. split; [discriminate|reflexivity]. Qed.

(** ** Contents *)
Section Writing.
  Variable isl : obj -> bool.
  Definition ran (js : list (list nat * res (list record))) (w : written) : Prop :=
    match w with
    | (f, None) => all_done js f
    | (f, Some q) => exists js1 e js2, js = js1 ++ (q, Err e) :: js2 /\ all_done js1 f
    end.
  Lemma all_done_app {P} (a b : list (P * res (list record))) f g : all_done a f -> all_done b g -> all_done (a ++ b) (f ++ g).
  Proof. intros H K. induction H as [|p r js w _ IH]; [auto|]. cbn. rewrite <- app_assoc. constructor. auto. Qed.
  Lemma ran_app a b (w w' : written) : ran a w -> ran b w' ->
    ran (a ++ b) (match w with (f, None) => let '(f', e) := w' in (f ++ f', e) | (f, Some q) => (f, Some q) end).
  Proof.
    destruct w as [f [q|]], w' as [f' e']; cbn [ran].
    - intros (j1 & e & j2 & -> & H) _. exists j1, e, (j2 ++ b). rewrite <- app_assoc. auto.
    - intros H K. destruct e' as [q|].
      + destruct K as (j1 & e & j2 & -> & K). exists (a ++ j1), e, j2. rewrite app_assoc. split; auto using all_done_app.
      + auto using all_done_app.
  Qed.
  Lemma wmap_ran h t : forall p, ran (map (fun qx => (fst qx, h (snd qx))) (leaf_paths isl p t)) (wmap isl h p t).
  Proof.
    assert (HL : forall p t, ran [(p, h t)] (wleaf h p t)).
    { intros p x. unfold wleaf. destruct (h x) as [r|e]; cbn [ran].
      - rewrite <- (app_nil_r r) at 2. repeat constructor.
      - exists [], e, []. split; [auto|constructor]. }
    induction t as [a| |k cs IH] using tree_ind'; intros p; cbn [leaf_paths wmap].
    - destruct (isl _); apply HL.
    - destruct (isl _); [apply HL|constructor].
    - destruct (isl _); [apply HL|]. generalize 0. induction IH as [|c cs Hc _ IHc]; intros i; cbn [wkids]; [constructor|].
      rewrite map_app. specialize (ran_app _ _ _ _ (Hc (p ++ [i])) (IHc (S i))). destruct (wmap isl h (p ++ [i]) c) as [f [q|]]; auto.
  Qed.
  Lemma ran_shift p js w : ran js w -> ran (map (fun qr => (p ++ fst qr, snd qr)) js) (fst w, option_map (app p) (snd w)).
  Proof.
    assert (HA : forall js f, all_done js f -> all_done (map (fun qr => (p ++ fst qr, snd qr)) js) f).
    { intros l f H. induction H; cbn; constructor; auto. }
    destruct w as [f [q|]]; cbn.
    - intros (j1 & e & j2 & -> & H). rewrite map_app. cbn. eexists _, e, _. split; [reflexivity|]. auto.
    - auto.
  Qed.
  Lemma wmap2_ran hs : forall p t, ran (jobs isl p hs t) (wmap2 isl p hs t).
  Proof.
    induction hs as [h| |k ts IH] using tree_ind'; intros p t; cbn [jobs wmap2].
    - pose proof (ran_shift p _ _ (wmap_ran h t [])) as H. rewrite map_map in H. destruct (wmap isl h [] t) as [f e]. exact H.
    - destruct t; constructor.
    - destruct t as [x| |k' cs]; try constructor. generalize 0. revert cs. induction IH as [|a ts Ha _ IHa]; intros cs i; cbn [wkids2]; [constructor|].
      destruct cs as [|c cs]; [constructor|]. specialize (ran_app _ _ _ _ (Ha (p ++ [i]) c) (IHa cs (S i))).
      destruct (wmap2 isl (p ++ [i]) a c) as [f [q|]]; auto.
  Qed.

  (** The two traversals agree. *)
  Definition follows {X} (s : file) (r : pres (X * file)) (w : written) : Prop :=
    match w with (f, None) => exists o, r = POk (o, s ++ f) | (_, Some q) => r = PPath q end.
  Lemma omap_wmap h t : forall p s, follows s (omap isl (fun s y => r <- h y ;; Ok (TNone, s ++ r)) p t s) (wmap isl h p t).
  Proof.
    assert (HL : forall p t s, follows s (at_leaf (fun s y => r <- h y ;; Ok (TNone, s ++ r)) p t s) (wleaf h p t)).
    { intros p x s. unfold at_leaf, wleaf. destruct (h x); cbn; eauto. }
    induction t as [a| |k cs IH] using tree_ind'; intros p s; cbn [omap wmap].
    - destruct (isl _); apply HL.
    - destruct (isl _); [apply HL|]. exists TNone. rewrite app_nil_r. auto.
    - destruct (isl _); [apply HL|].
      assert (HK : forall i, follows s (okids (omap isl (fun s y => r <- h y ;; Ok (TNone, s ++ r))) p i cs s) (wkids (wmap isl h) p i cs)).
      { revert s. induction IH as [|c cs Hc _ IHc]; intros s i; cbn [okids wkids].
        - exists []. rewrite app_nil_r. auto.
        - specialize (Hc (p ++ [i]) s). destruct (wmap isl h (p ++ [i]) c) as [f [q|]]; cbn [follows] in Hc; [rewrite Hc; reflexivity|].
          destruct Hc as [o ->]. specialize (IHc (s ++ f) (S i)). change (1 + i) with (S i). destruct (wkids (wmap isl h) p (S i) cs) as [f' [q|]]; cbn [follows] in *.
          + rewrite IHc. auto.
          + destruct IHc as [os ->]. rewrite <- app_assoc. eauto. }
      specialize (HK 0). destruct (wkids (wmap isl h) p 0 cs) as [f [q|]]; cbn [follows] in *; [rewrite HK; reflexivity|]. destruct HK as [os ->]. eauto.
  Qed.
  Lemma omap2_wmap2 hs : forall p t s,
    is_prefix hs t = true ->
    follows s (omap2 (fun (h : ser) x s => omap isl (fun s y => r <- h y ;; Ok (TNone, s ++ r)) [] x s) p hs t s) (wmap2 isl p hs t).
  Proof.
    induction hs as [h| |k ts IH] using tree_ind'; intros p t s HP; cbn [omap2 wmap2].
    - pose proof (omap_wmap h t [] s) as H. destruct (wmap isl h [] t) as [f [q|]]; cbn [follows option_map] in *; [rewrite H; reflexivity|]. destruct H as [o ->]. eauto.
    - destruct t; exists TNone; rewrite app_nil_r; auto.
    - destruct t as [x| |k' cs]; try discriminate. cbn [is_prefix] in HP. apply andb_prop in HP as [_ HP].
      set (G := fun (h : ser) x s => omap isl (fun s y => r <- h y ;; Ok (TNone, s ++ r)) [] x s) in *.
      assert (HK : forall i, follows s (kids2 (omap2 G) p i ts cs s) (wkids2 (wmap2 isl) p i ts cs)).
      { revert cs s HP. induction IH as [|a ts Ha _ IHa]; intros cs s HP i; cbn [kids2 wkids2].
        - exists []. rewrite app_nil_r. auto.
        - destruct cs as [|c cs]; [discriminate|]. apply andb_prop in HP as [HP1 HP2].
          specialize (Ha (p ++ [i]) c s HP1). destruct (wmap2 isl (p ++ [i]) a c) as [f [q|]]; cbn [follows] in Ha; [rewrite Ha; reflexivity|].
          destruct Ha as [o ->]. specialize (IHa cs (s ++ f) HP2 (S i)). change (1 + i) with (S i).
          destruct (wkids2 (wmap2 isl) p (S i) ts cs) as [f' [q|]]; cbn [follows] in *.
          + rewrite IHa. auto.
          + destruct IHa as [os ->]. rewrite <- app_assoc. eauto. }
      specialize (HK 0). destruct (wkids2 (wmap2 isl) p 0 ts cs) as [f [q|]]; cbn [follows] in *; [rewrite HK; reflexivity|]. destruct HK as [os ->]. eauto.
  Qed.
  Lemma write_serialise hs t f : serialise isl hs t =
    match write isl hs t f with
    | (_, POk _) => match wmap2 isl [] hs t with (w, _) => POk w end
    | (_, PPath q) => PPath q
    | (_, PRaise e) => PRaise e
    end.
  Proof.
    unfold serialise, write. destruct (is_prefix hs t) eqn:EP; [|auto]. cbn [negb].
    pose proof (omap2_wmap2 hs [] t [] EP) as H. destruct (wmap2 isl [] hs t) as [w [q|]]; cbn [follows] in H; [rewrite H; auto|]. destruct H as [o ->]. auto.
  Qed.
  Lemma write_ok hs t w f : serialise isl hs t = POk w -> write isl hs t f = (f ++ w, POk tt).
  Proof.
    intros H. rewrite (write_serialise hs t f) in H. unfold write in *. destruct (negb (is_prefix hs t)); [discriminate|].
    destruct (wmap2 isl [] hs t) as [w' [q|]]; [discriminate|]. injection H as ->. auto.
  Qed.
End Writing.

(** What is saved under a name is found under every name of the same file; all other files stay as they were,
    and what the file held before does not matter. *)
Theorem C101_save : forall isl hs t w d p q, serialise isl hs t = POk w -> with_suffix p = Ok q -> dirs d q = false -> dirs d (parent q) = true ->
  exists d', save isl d p hs t = (d', POk tt) /\ dirs d' = dirs d /\ files d' q = Some w /\ forall q', q' <> q -> files d' q' = files d q'.
Proof.
  intros isl hs t w d p q H E D1 D2. unfold save, open_w. rewrite E, D1, D2. cbn [negb]. rewrite (write_ok isl hs t w [] H). cbn [app].
  eexists. split; [reflexivity|]. split; [auto|]. split.
  - unfold store. cbn [files]. destruct (path_eq_dec q q); [auto|contradiction].
  - intros q' N. unfold store. cbn [files]. destruct (path_eq_dec q' q); [contradiction|auto].
Qed.
Print Assumptions C101_save.
Theorem C101_round_trip : forall isl hs gs t like o d p p' d', specs_trip isl hs gs t like o ->
  save isl d p hs t = (d', POk tt) -> with_suffix p' = with_suffix p -> load isl d' p' gs like = POk o.
Proof.
  intros isl hs gs t like o d p p' d' HT HS EP. destruct (C20_round_trip_specs isl hs gs t like o HT) as (f & H1 & H2).
  unfold save in HS. unfold load. rewrite EP. destruct (with_suffix p) as [q|e]; [|discriminate]. unfold open_w in HS. unfold open_r.
  destruct (dirs d q) eqn:D1; [discriminate|]. destruct (dirs d (parent q)); [|discriminate]. cbn [negb] in HS.
  rewrite (write_ok isl hs t f [] H1) in HS. injection HS as <-. cbn [dirs files store app]. rewrite D1.
  destruct (path_eq_dec q q); [|contradiction]. rewrite <- (app_nil_r f), H2. auto.
Qed.
Print Assumptions C101_round_trip.
(** Later saves to other files do no harm. *)
Theorem C101_undisturbed : forall isl isl' d p p' q q' hs t d' r gs like, with_suffix p = Ok q -> with_suffix p' = Ok q' -> q <> q' ->
  save isl d p hs t = (d', r) -> load isl' d' p' gs like = load isl' d p' gs like.
Proof.
  intros isl isl' d p p' q q' hs t d' r gs like E E' N H. unfold save in H. rewrite E in H. unfold load, open_r. rewrite E'.
  unfold open_w in H. destruct (dirs d q); [injection H as <- _; auto|]. destruct (dirs d (parent q)); cbn [negb] in H; [|injection H as <- _; auto].
  destruct (write isl hs t []) as [f r']. injection H as <- _. cbn [dirs files store].
  destruct (path_eq_dec q' q) as [->|_]; [congruence|]. auto.
Qed.
Print Assumptions C101_undisturbed.

(** The directory must exist and the file must not be one; a file must exist to be loaded. Then nothing has changed. *)
Theorem C101_open_errors : forall isl d p q hs gs t, with_suffix p = Ok q ->
  (dirs d q = true -> save isl d p hs t = (d, PRaise is_a_directory) /\ load isl d p gs t = PRaise is_a_directory) /\
  (dirs d q = false -> dirs d (parent q) = false -> save isl d p hs t = (d, PRaise not_found)) /\
  (dirs d q = false -> files d q = None -> load isl d p gs t = PRaise not_found).
Proof.
  intros isl d p q hs gs t E. unfold save, load, open_w, open_r. rewrite E. split; [intros ->; auto|]. split; [intros -> ->; auto|intros -> ->; auto].
Qed.
Print Assumptions C101_open_errors.
Theorem C101_nameless : forall isl d p hs gs t, name p = "" -> save isl d p hs t = (d, PRaise ValueError) /\ load isl d p gs t = PRaise ValueError.
Proof. intros isl d p hs gs t E. apply C101_no_name in E. unfold save, load. rewrite E. auto. Qed.
Print Assumptions C101_nameless.

(** A save that fails half-way has destroyed the old contents: the file holds exactly what the leaves before the
    failing one wrote, in order. It is left empty if [filter_spec] does not fit the tree. *)
Theorem C101_failed : forall isl hs t d p q, with_suffix p = Ok q -> dirs d q = false -> dirs d (parent q) = true ->
  exists d' r, save isl d p hs t = (d', r) /\
    (r = PRaise ValueError -> files d' q = Some [] /\ is_prefix hs t = false) /\
    (forall e, r = PRaise e -> e = ValueError) /\
    (forall x, r = PPath x -> exists js1 e js2 w, jobs isl [] hs t = js1 ++ (x, Err e) :: js2 /\ all_done js1 w /\ files d' q = Some w) /\
    (r = POk tt -> exists w, all_done (jobs isl [] hs t) w /\ files d' q = Some w).
Proof.
  intros isl hs t d p q E D1 D2. unfold save, open_w. rewrite E, D1, D2. cbn [negb]. unfold write.
  assert (HF : forall f, files (store (store d q []) q f) q = Some f).
  { intros f. unfold store. cbn [files]. destruct (path_eq_dec q q); [auto|contradiction]. }
  destruct (is_prefix hs t) eqn:EP; cbn [negb app].
  - pose proof (wmap2_ran isl hs [] t) as HR. destruct (wmap2 isl [] hs t) as [w [x|]]; cbn [ran] in HR; eexists _, _;
      (split; [reflexivity|]; split; [discriminate|]; split; [discriminate|]; split; [|]; try discriminate).
    + intros x' [= <-]. destruct HR as (j1 & e & j2 & -> & HR). exists j1, e, j2, w. auto.
    + intros _. exists w. auto.
  - eexists _, _. split; [reflexivity|]. split; [auto|]. split; [congruence|]. split; discriminate.
Qed.
Print Assumptions C101_failed.
(** For example, a typed random key cannot be saved, and the attempt empties the file. *)
Theorem C101_old_contents_lost : exists isl hs t d p q old, with_suffix p = Ok q /\ files d q = Some old /\ old <> [] /\
  exists d' x, save isl d p hs t = (d', PPath x) /\ files d' q = Some [].
Proof.
  exists no_leaf, (Leaf default_ser), (Leaf (JArr {| sh := []; dt := DKey; dat := [1%Z] |})),
    {| dirs := fun p => match parts p with [] => true | _ => false end; files := fun _ => Some [Junk] |}, (parse "m"), (parse "m.eqx"), [Junk].
  split; [reflexivity|]. split; [reflexivity|]. split; [discriminate|]. eexists _, _. split; [reflexivity|]. reflexivity.
Qed.
Print Assumptions C101_old_contents_lost.

(** ** File-like objects: several trees one after the other. *)
Inductive saved_in_turn (isl : obj -> bool) : list (tree ser * obj) -> file -> file -> Prop :=
| ST_none f : saved_in_turn isl [] f f
| ST_more hs t l f f' g : write isl hs t f = (f', POk tt) -> saved_in_turn isl l f' g -> saved_in_turn isl ((hs, t) :: l) f g.
Inductive loaded_in_turn (isl : obj -> bool) : list (tree des * obj) -> file -> list obj -> file -> Prop :=
| LT_none f : loaded_in_turn isl [] f [] f
| LT_more gs like l f f' o os g : deserialise isl gs like f = POk (o, f') -> loaded_in_turn isl l f' os g -> loaded_in_turn isl ((gs, like) :: l) f (o :: os) g.
Theorem C101_in_turn : forall isl (l : list (tree ser * tree des * obj * obj * obj)),
  Forall (fun x => let '(hs, gs, t, like, o) := x in specs_trip isl hs gs t like o) l ->
  forall before, exists w,
    saved_in_turn isl (map (fun x => let '(hs, gs, t, like, o) := x in (hs, t)) l) before (before ++ w) /\
    forall rest, loaded_in_turn isl (map (fun x => let '(hs, gs, t, like, o) := x in (gs, like)) l) (w ++ rest)
      (map (fun x => let '(hs, gs, t, like, o) := x in o) l) rest.
Proof.
  intros isl l H. induction H as [|[[[[hs gs] t] like] o] l HT _ IH]; intros before; cbn [map].
  - exists []. rewrite app_nil_r. split; [constructor|]. intros rest. constructor.
  - destruct (C20_round_trip_specs isl hs gs t like o HT) as (f & H1 & H2). destruct (IH (before ++ f)) as (w & A & B).
    exists (f ++ w). split.
    + econstructor; [apply write_ok; exact H1|]. rewrite app_assoc. exact A.
    + intros rest. econstructor; [rewrite <- app_assoc; apply H2|apply B].
Qed.
Print Assumptions C101_in_turn.

(** Non-vacuity *)
Definition d0 : disk := {| dirs := fun p => match parts p with [] => true | ["out"] => true | _ => false end; files := fun _ => None |}.
Example C101_ex :
  let t := Node 0%nat [Leaf (NArr {| sh := []; dt := DI32; dat := [5%Z] |}); Leaf (Other 7)] in
  let like := Node 0%nat [Leaf (NArr {| sh := []; dt := DI32; dat := [0%Z] |}); Leaf (Other 8)] in
  exists d', save no_leaf d0 (parse "out/model") (Leaf default_ser) t = (d', POk tt) /\
    load no_leaf d' (parse "out/model.eqx") (Leaf (default_des false (fun _ _ z => z) (fun _ _ z => Ok z))) like =
      POk (Node 0%nat [Leaf (NArr {| sh := []; dt := DI32; dat := [5%Z] |}); Leaf (Other 8)]) /\
    load no_leaf d' (parse "out/model2") (Leaf (default_des false (fun _ _ z => z) (fun _ _ z => Ok z))) like = PRaise not_found /\
    snd (save no_leaf d0 (parse "nowhere/model") (Leaf default_ser) t) = PRaise not_found.
Proof. eexists. split; [reflexivity|]. split; [vm_compute; reflexivity|]. split; vm_compute; reflexivity. Qed.
