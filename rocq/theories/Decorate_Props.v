(** C133: options of decorators. *)
From Coq Require Import Lia.
From Verif Require Import Base Decorate_Model.
Local Open Scope string_scope.
Local Open Scope list_scope.

Definition keys_ok (d : dict) : Prop := NoDup (map fst d).

Lemma lookup_put k v d k' : lookup k' (put k v d) = if String.eqb k' k then Some v else lookup k' d.
Proof.
  induction d as [|[q w] d IH]; cbn [put lookup]; [reflexivity|]. destruct (String.eqb_spec k q) as [->|N]; cbn [lookup].
  - destruct (String.eqb k' q); reflexivity.
  - rewrite IH. destruct (String.eqb_spec k' q) as [->|N']; [|reflexivity]. destruct (String.eqb_spec q k) as [->|]; [congruence|reflexivity].
Qed.
Lemma lookup_none k d : lookup k d = None <-> ~ In k (map fst d).
Proof.
  induction d as [|[q w] d IH]; cbn [lookup map fst In]; [tauto|]. destruct (String.eqb_spec k q) as [->|N]; [split; [discriminate|intros H; exfalso; apply H; left; reflexivity]|]. rewrite IH. split; [intros H [E|E]; [congruence|exact (H E)]|tauto].
Qed.
Lemma lookup_merge k b : keys_ok b -> forall a, lookup k (merge a b) = match lookup k b with Some v => Some v | None => lookup k a end.
Proof.
  unfold merge. induction b as [|[q w] b IH]; intros H a; cbn [fold_left lookup]; [reflexivity|]. inversion H as [|? ? H1 H2]; subst. rewrite IH by exact H2. cbn [fst snd]. rewrite lookup_put. destruct (String.eqb_spec k q) as [->|N]; [|reflexivity].
  apply lookup_none in H1. rewrite H1. reflexivity.
Qed.
Lemma filter_put (P : string -> bool) k v d : List.filter (fun x => P (fst x)) (put k v d) = if P k then put k v (List.filter (fun x => P (fst x)) d) else List.filter (fun x => P (fst x)) d.
Proof.
  induction d as [|[q w] d IH]; cbn [put List.filter fst]; [destruct (P k); reflexivity|]. destruct (String.eqb_spec k q) as [->|N]; cbn [List.filter fst].
  - destruct (P q); [cbn [put]; rewrite String.eqb_refl|]; reflexivity.
  - destruct (P q), (P k) eqn:Pk; rewrite IH; try reflexivity. cbn [put]. destruct (String.eqb_spec k q); [congruence|reflexivity].
Qed.
Lemma filter_merge (P : string -> bool) b : forall a, List.filter (fun x => P (fst x)) (merge a b) = merge (List.filter (fun x => P (fst x)) a) (List.filter (fun x => P (fst x)) b).
Proof.
  unfold merge. induction b as [|[q w] b IH]; intros a; [reflexivity|]. cbn [fold_left List.filter fst snd]. rewrite IH, filter_put. destruct (P q); reflexivity.
Qed.
Lemma lookup_app k a b : lookup k (a ++ b) = match lookup k a with Some v => Some v | None => lookup k b end.
Proof. induction a as [|[q w] a IH]; [reflexivity|]. cbn [app lookup]. destruct (String.eqb k q); [reflexivity|exact IH]. Qed.
Lemma lookup_filter (P : string -> bool) k d : lookup k (List.filter (fun x => P (fst x)) d) = if P k then lookup k d else None.
Proof.
  induction d as [|[q w] d IH]; cbn [List.filter lookup fst]; [destruct (P k); reflexivity|]. destruct (P q) eqn:Pq; cbn [lookup]; rewrite IH; destruct (String.eqb_spec k q) as [->|]; try reflexivity; rewrite Pq; reflexivity.
Qed.

Definition bound (kw : dict) (o : string * option value) : res (string * value) :=
  match lookup (fst o) kw, snd o with Some v, _ => Ok (fst o, v) | None, Some v => Ok (fst o, v) | None, None => Err TypeError end.
Lemma bind_options_eq d kw : bind_options d kw = mapM (bound kw) (options d).
Proof. reflexivity. Qed.
Lemma mapM_same {A B} (f g : A -> res B) l : (forall x, In x l -> f x = g x) -> mapM f l = mapM g l.
Proof. induction l as [|a l IH]; intros H; [reflexivity|]. cbn [mapM]. rewrite H by (left; reflexivity). rewrite IH by (intros x Hx; apply H; right; exact Hx). reflexivity. Qed.
Lemma bound_keys kw l : forall o, mapM (bound kw) l = Ok o -> map fst o = map fst l.
Proof.
  induction l as [|[k dv] l IH]; intros o H; cbn [mapM] in H; [injection H as <-; reflexivity|]. apply bind_ok in H as (b & Hb & H). apply bind_ok in H as (r & Hr & H). injection H as <-. cbn [map]. f_equal; [|apply IH; exact Hr].
  unfold bound in Hb. cbn [fst snd] in *. destruct (lookup k kw), dv; try discriminate; injection Hb as <-; reflexivity.
Qed.
Lemma bound_lookup kw l : forall o, mapM (bound kw) l = Ok o -> NoDup (map fst l) -> forall k dv, In (k, dv) l -> exists v, lookup k o = Some v /\ bound kw (k, dv) = Ok (k, v).
Proof.
  induction l as [|[q dq] l IH]; intros o H ND k dv Hin; [destruct Hin|]. cbn [mapM] in H. apply bind_ok in H as (b & Hb & H). apply bind_ok in H as (r & Hr & H). injection H as <-. inversion ND as [|? ? N1 N2]; subst.
  assert (F : fst b = q) by (unfold bound in Hb; cbn [fst snd] in *; destruct (lookup q kw), dq; try discriminate; injection Hb as <-; reflexivity). destruct b as [b w]. cbn [fst] in F. subst b.
  destruct Hin as [E|Hin].
  - injection E as -> ->. exists w. cbn [lookup]. rewrite String.eqb_refl. split; [reflexivity|exact Hb].
  - cbn [lookup]. destruct (String.eqb_spec k q) as [->|]; [exfalso; apply N1; change q with (fst (q, dv)); apply in_map; exact Hin|]. eapply IH; eassumption.
Qed.
Lemma options_nodup d : NoDup (map fst (options d)).
Proof. destruct d; cbn; repeat constructor; cbn; intuition discriminate. Qed.
Lemma known_option d k dv : In (k, dv) (options d) -> known d k = true.
Proof. intros H. unfold known. apply orb_true_iff. right. apply existsb_exists. exists (k, dv). split; [exact H|apply String.eqb_refl]. Qed.
Lemma first_not_option d : ~ In (first d) (map fst (options d)).
Proof. destruct d; cbn; intuition discriminate. Qed.
Lemma known_first d : known d (first d) = true.
Proof. unfold known. rewrite String.eqb_refl. reflexivity. Qed.

(** A call with keyword arguments only that gives a partial object. *)
Lemma call_nil d kw p : call d [] kw = Ok (Partial p) -> exists o, bind_options d kw = Ok o /\ p = o ++ List.filter (fun x => negb (known d (fst x))) kw /\ lookup (first d) kw = None /\ (extra d = true \/ List.filter (fun x => negb (known d (fst x))) kw = []).
Proof.
  unfold call. destruct (lookup (first d) kw) as [[| |f|]|] eqn:L; cbn [bind]; try discriminate; cbn zeta.
  - destruct (negb (extra d) && _); [discriminate|]. destruct (bind_options d kw); cbn [bind]; [|discriminate]. destruct (wrap _ _ _ _); discriminate.
  - destruct (negb (extra d) && _) eqn:X; [discriminate|]. destruct (bind_options d kw) as [o|]; cbn [bind]; [|discriminate]. intros H. injection H as <-. exists o. repeat (split; [reflexivity|]).
    destruct (extra d); [left; reflexivity|right]. destruct (List.filter _ kw); [reflexivity|discriminate].
Qed.
(** Options may be given in two steps, the later ones winning: the same as all at once. *)
Theorem C133_stage : forall d kw1 p pos kw2, keys_ok kw2 -> call d [] kw1 = Ok (Partial p) -> call_partial d p pos kw2 = call d pos (merge kw1 kw2).
Proof.
  intros d kw1 p pos kw2 K2 H. apply call_nil in H as (o & Ho & -> & L & X). unfold call_partial. set (P := fun k => negb (known d k)). change (List.filter (fun x => negb (known d (fst x))) kw1) with (List.filter (fun x => P (fst x)) kw1).
  assert (Lo : forall k, ~ In k (map fst (options d)) -> lookup k o = None) by (intros k Hk; apply lookup_none; rewrite bind_options_eq in Ho; rewrite (bound_keys _ _ _ Ho); exact Hk).
  assert (F : lookup (first d) (merge (o ++ List.filter (fun x => P (fst x)) kw1) kw2) = lookup (first d) (merge kw1 kw2)).
  { rewrite !lookup_merge by exact K2. destruct (lookup (first d) kw2); [reflexivity|]. rewrite lookup_app, (Lo _ (first_not_option d)), lookup_filter, L. destruct (P _); reflexivity. }
  assert (E : List.filter (fun x => P (fst x)) (merge (o ++ List.filter (fun x => P (fst x)) kw1) kw2) = List.filter (fun x => P (fst x)) (merge kw1 kw2)).
  { rewrite !filter_merge. f_equal. rewrite filter_app.
    assert (Eo : List.filter (fun x => P (fst x)) o = []).
    { rewrite bind_options_eq in Ho. pose proof (bound_keys _ _ _ Ho) as Ek. assert (A : forall k, In k (map fst o) -> P k = false). { intros k Hk. rewrite Ek in Hk. apply in_map_iff in Hk as ([q dv] & <- & Hk). unfold P. cbn [fst]. rewrite (known_option d q dv Hk). reflexivity. }
      clear - A. induction o as [|[k v] o IH]; [reflexivity|]. cbn [List.filter fst]. rewrite (A k) by (left; reflexivity). apply IH. intros q Hq. apply A. right. exact Hq. }
    rewrite Eo. cbn [app]. generalize kw1. clear. induction kw1 as [|[k v] l IH]; [reflexivity|]. cbn [List.filter fst]. destruct (P k) eqn:Pk; [|exact IH]. cbn [List.filter fst]. rewrite Pk, IH. reflexivity. }
  assert (B : bind_options d (merge (o ++ List.filter (fun x => P (fst x)) kw1) kw2) = bind_options d (merge kw1 kw2)).
  { rewrite !bind_options_eq. apply mapM_same. intros [k dv] Hin. rewrite bind_options_eq in Ho. destruct (bound_lookup _ _ _ Ho (options_nodup d) k dv Hin) as (v & Lv & Bv). unfold bound in *. cbn [fst snd] in *.
    rewrite !lookup_merge by exact K2. destruct (lookup k kw2); [reflexivity|]. rewrite lookup_app, Lv. destruct (lookup k kw1); congruence. }
  unfold call. rewrite F, B. unfold P in E |- *. rewrite E. reflexivity.
Qed.
Print Assumptions C133_stage.

Lemma call_known d pos kw : lookup (first d) kw = None -> (extra d = false /\ exists k, has k kw = true /\ known d k = false) -> List.length pos <= 1 -> call d pos kw = Err TypeError.
Proof.
  intros L [X (k & Hk & Kk)] Hp. unfold call. rewrite L. assert (N : List.filter (fun x => negb (known d (fst x))) kw <> []).
  { intros E. pose proof (lookup_filter (fun k => negb (known d k)) k kw) as G. cbn beta in G. rewrite E, Kk in G. cbn in G. unfold has in Hk. rewrite <- G in Hk. discriminate. }
  rewrite X. destruct (List.filter _ kw); [congruence|]. destruct pos as [|f [|? ?]]; cbn in *; try reflexivity; lia.
Qed.
(** Without the function nothing but the names is checked: the result is a partial object or a TypeError, for an unknown name or a missing [max_traces]. *)
Theorem C133_lazy : forall d kw, has (first d) kw = false ->
  if (extra d || forallb (fun e => known d (fst e)) kw) && match d with Max_traces => has "max_traces" kw | _ => true end then exists p, call d [] kw = Ok (Partial p) else call d [] kw = Err TypeError.
Proof.
  intros d kw L. assert (L' : lookup (first d) kw = None) by (unfold has in L; destruct (lookup (first d) kw); [discriminate|reflexivity]).
  assert (E : forallb (fun e => known d (fst e)) kw = match List.filter (fun x => negb (known d (fst x))) kw with [] => true | _ => false end).
  { clear. induction kw as [|e kw IH]; [reflexivity|]. cbn [forallb List.filter]. destruct (known d (fst e)); cbn [negb andb]; [exact IH|reflexivity]. }
  rewrite E. unfold call. rewrite L'. cbn [bind]. cbn zeta. destruct (match List.filter _ kw with [] => true | _ => false end), (extra d) eqn:X; cbn [negb andb orb]; try reflexivity;
  destruct d; try discriminate X; unfold bind_options, has; cbn; repeat (destruct (lookup _ kw); cbn); try (eexists; reflexivity); reflexivity.
Qed.
Print Assumptions C133_lazy.

Lemma has_merge k a b : keys_ok b -> has k (merge a b) = has k b || has k a.
Proof. intros H. unfold has. rewrite lookup_merge by exact H. destruct (lookup k b); reflexivity. Qed.
Lemma has_fold k kws : Forall keys_ok kws -> forall a, has k a = true -> has k (fold_left merge kws a) = true.
Proof. induction 1 as [|b kws Hb H IH]; intros a Ha; [exact Ha|]. cbn [fold_left]. apply IH. rewrite has_merge, Ha by exact Hb. apply orb_true_r. Qed.
Lemma nohas_fold k kws : Forall keys_ok kws -> Forall (fun b => has k b = false) kws -> forall a, has k a = false -> has k (fold_left merge kws a) = false.
Proof. induction 1 as [|b kws Hb H IH]; intros HN a Ha; [exact Ha|]. inversion HN; subst. cbn [fold_left]. apply IH; [assumption|]. rewrite has_merge by exact Hb. rewrite H2, Ha. reflexivity. Qed.
(** Any number of steps: the same as all options at once, also for errors. *)
Theorem C133_stages : forall d f kws kw p, Forall keys_ok kws -> Forall (fun b => has (first d) b = false) kws -> call d [] kw = Ok (Partial p) ->
  stages d p kws f = call d [f] (fold_left merge kws kw).
Proof.
  intros d f kws. induction kws as [|b kws IH]; intros kw p HK HN H; cbn [stages fold_left]; [apply (C133_stage d kw p [f] []); [constructor|exact H]|].
  inversion HK; inversion HN; subst. rewrite (C133_stage d kw p [] b) by assumption. assert (L : has (first d) kw = false) by (apply call_nil in H as (o & _ & _ & L & _); unfold has; rewrite L; reflexivity).
  assert (L2 : has (first d) (merge kw b) = false) by (rewrite has_merge by assumption; rewrite L, H6; reflexivity).
  pose proof (C133_lazy d (merge kw b) L2) as Z. destruct ((extra d || _) && _) eqn:G.
  - destruct Z as [q Hq]. rewrite Hq. cbn [bind]. apply IH; assumption.
  - rewrite Z. cbn [bind]. symmetry.
    assert (M : match d with Max_traces => has "max_traces" (merge kw b) | _ => true end = true).
    { destruct d; try reflexivity. rewrite has_merge by assumption. apply call_nil in H as (o & Ho & _). unfold bind_options in Ho. cbn in Ho. unfold has. destruct (lookup "max_traces" kw); [apply orb_true_r|discriminate]. }
    rewrite M, andb_true_r in G. apply orb_false_iff in G as [X G].
    assert (U : exists k, has k (merge kw b) = true /\ known d k = false).
    { clear - G. induction (merge kw b) as [|[k v] l IHl]; [discriminate|]. cbn [forallb fst] in G. destruct (known d k) eqn:Kk; [|exists k; split; [unfold has; cbn [lookup]; rewrite String.eqb_refl; reflexivity|exact Kk]].
      destruct (IHl G) as (q & Q1 & Q2). exists q. split; [|exact Q2]. unfold has in *. cbn [lookup]. destruct (String.eqb q k); [reflexivity|exact Q1]. }
    destruct U as (k & U1 & U2). apply call_known; [|split; [exact X|exists k; split; [apply has_fold; assumption|exact U2]]|cbn; lia].
    pose proof (nohas_fold (first d) kws H3 H7 _ L2) as N. unfold has in N. destruct (lookup (first d) _); [discriminate|reflexivity].
Qed.
Print Assumptions C133_stages.
(** With and without parentheses. *)
Theorem C133_parentheses : forall d f, d <> Max_traces -> exists p, call d [] [] = Ok (Partial p) /\ call_partial d p [f] [] = call d [f] [].
Proof. intros d f N. pose proof (C133_lazy d [] eq_refl) as Z. cbn [forallb] in Z. rewrite orb_true_r in Z. destruct d; try congruence; destruct Z as [p Hp]; (exists p; split; [exact Hp|]); apply (C133_stage _ [] p [f] []); try constructor; exact Hp. Qed.
Print Assumptions C133_parentheses.

Lemma existsb_has (P : string -> bool) names kw : (forall n, In n names -> P n = true) -> existsb (fun n => has n (List.filter (fun x => P (fst x)) kw)) names = existsb (fun n => has n kw) names.
Proof. induction names as [|n l IH]; intros H; [reflexivity|]. cbn [existsb]. rewrite IH by (intros x Hx; apply H; right; exact Hx). f_equal. unfold has. rewrite lookup_filter, (H n) by (left; reflexivity). reflexivity. Qed.
Lemma has_lookup k kw : has k kw = false -> lookup k kw = None.
Proof. unfold has. destruct (lookup k kw); [discriminate|reflexivity]. Qed.
Definition given (k : string) (default : value) (kw : dict) : value := match lookup k kw with Some v => v | None => default end.
Definition rest (d : decorator) (kw : dict) : dict := List.filter (fun x => negb (known d (fst x))) kw.
Lemma lookup_rest d k kw : lookup k (rest d kw) = if known d k then None else lookup k kw.
Proof. unfold rest. rewrite (lookup_filter (fun k => negb (known d k))). destruct (known d k); reflexivity. Qed.

(** [filter_jit] of a function, for all keyword arguments. *)
Theorem C133_jit : forall f kw, has "fun" kw = false ->
  let bad := existsb (fun n => has n kw) ["default"; "fn"; "args"; "kwargs"; "out"; "static_argnums"; "static_argnames"; "donate_argnums"] in
  call Jit [f] kw =
    if bad then Err ValueError else
    match given "donate" (VStr "none") kw with
    | VStr s =>
        let ok warn fst rest' := Ok (Wrapped (mk_wrapper Jit f [("donate", VStr s)] (rest Jit kw) [warn; fst; rest'])) in
        if String.eqb s "all" then ok true true true else if String.eqb s "all-except-first" then ok true false true else if String.eqb s "warn" then ok false true true
        else if String.eqb s "warn-except-first" then ok false false true else if String.eqb s "none" then ok false false false else Err ValueError
    | _ => Err ValueError
    end.
Proof.
  intros f kw H bad. unfold call. change (first Jit) with "fun". rewrite (has_lookup _ _ H). cbn [bind negb extra andb]. cbn zeta. fold (rest Jit kw).
  unfold bind_options. cbn [mapM options fst snd bind]. assert (E : match lookup "donate" kw with Some v => Ok ("donate", v) | None => Ok ("donate", VStr "none") end = Ok ("donate", given "donate" (VStr "none") kw)) by (unfold given; destruct (lookup "donate" kw); reflexivity).
  rewrite E. cbn [bind]. unfold wrap, forbid.
  assert (B1 : existsb (fun n => has n (rest Jit kw)) old_names = existsb (fun n => has n kw) old_names) by (apply (existsb_has (fun k => negb (known Jit k))); intros n Hn; repeat (destruct Hn as [<-|Hn]; [reflexivity|]); destruct Hn).
  assert (B2 : existsb (fun n => has n (rest Jit kw)) ["static_argnums"; "static_argnames"; "donate_argnums"] = existsb (fun n => has n kw) ["static_argnums"; "static_argnames"; "donate_argnums"]) by (apply (existsb_has (fun k => negb (known Jit k))); intros n Hn; repeat (destruct Hn as [<-|Hn]; [reflexivity|]); destruct Hn).
  rewrite B1, B2. assert (Eb : bad = existsb (fun n => has n kw) old_names || existsb (fun n => has n kw) ["static_argnums"; "static_argnames"; "donate_argnums"]) by (unfold bad; rewrite <- existsb_app; reflexivity).
  rewrite Eb. clear Eb bad B1 B2. destruct (existsb _ old_names); [reflexivity|]. cbn [bind orb]. destruct (existsb _ _); [reflexivity|]. cbn [bind].
  unfold opt. cbn [lookup]. change (String.eqb "donate" "donate") with true. cbv iota. unfold jit_flags, is_str. destruct (given "donate" (VStr "none") kw) as [s| | |]; try reflexivity.
  rewrite (String.eqb_sym "all" s), (String.eqb_sym "all-except-first" s), (String.eqb_sym "warn" s), (String.eqb_sym "warn-except-first" s), (String.eqb_sym "none" s).
  destruct (String.eqb s "all"); [reflexivity|]. destruct (String.eqb s "all-except-first"); [reflexivity|]. destruct (String.eqb s "warn"); [reflexivity|]. destruct (String.eqb s "warn-except-first"); [reflexivity|]. destruct (String.eqb s "none"); reflexivity.
Qed.
Print Assumptions C133_jit.
(** [filter_grad] and [filter_value_and_grad]: [argnums] may only be [None], and is not passed on. *)
Theorem C133_grad : forall d f kw, d = Grad \/ d = Value_and_grad -> has "fun" kw = false ->
  call d [f] kw =
    if has "arg" kw || has "filter_spec" kw || match lookup "argnums" kw with None | Some VNone => false | _ => true end then Err ValueError
    else Ok (Wrapped (mk_wrapper d f [("has_aux", given "has_aux" (VAny 1) kw)] (List.filter (fun x => negb (String.eqb (fst x) "argnums")) (rest d kw)) [])).
Proof.
  intros d f kw Hd H. assert (Ef : first d = "fun") by (destruct Hd as [-> | ->]; reflexivity). assert (Ex : extra d = true) by (destruct Hd as [-> | ->]; reflexivity).
  unfold call. rewrite Ef, (has_lookup _ _ H), Ex. cbn [bind negb andb]. cbn zeta. fold (rest d kw).
  assert (Eo : bind_options d kw = Ok [("has_aux", given "has_aux" (VAny 1) kw)]) by (unfold bind_options, given; destruct Hd as [-> | ->]; cbn; destruct (lookup "has_aux" kw); reflexivity). rewrite Eo. cbn [bind].
  assert (K : forall n, In n ["arg"; "filter_spec"; "argnums"] -> known d n = false) by (intros n Hn; destruct Hd as [-> | ->]; repeat (destruct Hn as [<-|Hn]; [reflexivity|]); destruct Hn).
  assert (W : wrap d f [("has_aux", given "has_aux" (VAny 1) kw)] (rest d kw) = (_ <- forbid ["arg"; "filter_spec"] (rest d kw) ;; match opt "argnums" (rest d kw) with VNone => Ok (mk_wrapper d f [("has_aux", given "has_aux" (VAny 1) kw)] (List.filter (fun x => negb (String.eqb (fst x) "argnums")) (rest d kw)) []) | _ => Err ValueError end)) by (destruct Hd as [-> | ->]; reflexivity).
  rewrite W. unfold forbid, opt. cbn [existsb]. unfold has. rewrite !lookup_rest, !K by (cbn; tauto). rewrite orb_false_r. destruct (lookup "arg" kw), (lookup "filter_spec" kw); cbn [orb bind rmap]; try reflexivity. destruct (lookup "argnums" kw) as [[| | |]|]; reflexivity.
Qed.
Print Assumptions C133_grad.
(** [filter_vmap]. *)
Theorem C133_vmap : forall f kw, has "fun" kw = false ->
  call Vmap [f] kw =
    if existsb (fun n => has n kw) ["default"; "fn"; "args"; "kwargs"; "out"] then Err ValueError
    else Ok (Wrapped (mk_wrapper Vmap f [("in_axes", given "in_axes" (VAny 0) kw); ("out_axes", given "out_axes" (VAny 0) kw); ("axis_name", given "axis_name" VNone kw); ("axis_size", given "axis_size" VNone kw)] (rest Vmap kw) [])).
Proof.
  intros f kw H. unfold call. change (first Vmap) with "fun". rewrite (has_lookup _ _ H). cbn [bind negb extra andb]. cbn zeta. fold (rest Vmap kw).
  assert (Eo : bind_options Vmap kw = Ok [("in_axes", given "in_axes" (VAny 0) kw); ("out_axes", given "out_axes" (VAny 0) kw); ("axis_name", given "axis_name" VNone kw); ("axis_size", given "axis_size" VNone kw)]) by (unfold bind_options, given; cbn; repeat (destruct (lookup _ kw); cbn); reflexivity).
  rewrite Eo. cbn [bind]. unfold wrap, forbid.
  assert (B1 : existsb (fun n => has n (rest Vmap kw)) old_names = existsb (fun n => has n kw) old_names) by (apply (existsb_has (fun k => negb (known Vmap k))); intros n Hn; repeat (destruct Hn as [<-|Hn]; [reflexivity|]); destruct Hn).
  rewrite B1. clear B1. change old_names with ["default"; "fn"; "args"; "kwargs"; "out"]. destruct (existsb _ _); reflexivity.
Qed.
Print Assumptions C133_vmap.
(** [filter_pmap]: the old name 'arrays' is 'all'; the memory of the arguments is donated except for 'none'. *)
Theorem C133_pmap : forall f kw, has "fun" kw = false ->
  call Pmap [f] kw =
    if existsb (fun n => has n kw) ["default"; "fn"; "args"; "kwargs"; "out"; "static_broadcasted_argnums"; "donate_argnums"] then Err ValueError else
    let ok donate e warn := Ok (Wrapped (mk_wrapper Pmap f [("in_axes", given "in_axes" (VAny 0) kw); ("out_axes", given "out_axes" (VAny 0) kw); ("axis_name", given "axis_name" VNone kw);
      ("axis_size", given "axis_size" VNone kw); ("donate", VStr donate)] e [warn])) in
    match given "donate" (VStr "none") kw with
    | VStr s => if String.eqb s "arrays" || String.eqb s "all" then ok "all" (rest Pmap kw ++ [("donate_argnums", VAny 0)]) true else if String.eqb s "warn" then ok "warn" (rest Pmap kw ++ [("donate_argnums", VAny 0)]) false
        else if String.eqb s "none" then ok "none" (rest Pmap kw) false else Err ValueError
    | _ => Err ValueError
    end.
Proof.
  intros f kw H. unfold call. change (first Pmap) with "fun". rewrite (has_lookup _ _ H). cbn [bind negb extra andb]. cbn zeta. fold (rest Pmap kw).
  assert (Eo : bind_options Pmap kw = Ok [("in_axes", given "in_axes" (VAny 0) kw); ("out_axes", given "out_axes" (VAny 0) kw); ("axis_name", given "axis_name" VNone kw); ("axis_size", given "axis_size" VNone kw); ("donate", given "donate" (VStr "none") kw)]) by (unfold bind_options, given; cbn; repeat (destruct (lookup _ kw); cbn); reflexivity).
  rewrite Eo. cbn [bind]. unfold wrap, forbid.
  assert (B1 : existsb (fun n => has n (rest Pmap kw)) old_names = existsb (fun n => has n kw) old_names) by (apply (existsb_has (fun k => negb (known Pmap k))); intros n Hn; repeat (destruct Hn as [<-|Hn]; [reflexivity|]); destruct Hn).
  assert (B2 : existsb (fun n => has n (rest Pmap kw)) ["static_broadcasted_argnums"; "donate_argnums"] = existsb (fun n => has n kw) ["static_broadcasted_argnums"; "donate_argnums"]) by (apply (existsb_has (fun k => negb (known Pmap k))); intros n Hn; repeat (destruct Hn as [<-|Hn]; [reflexivity|]); destruct Hn).
  rewrite B1, B2. change ["default"; "fn"; "args"; "kwargs"; "out"; "static_broadcasted_argnums"; "donate_argnums"] with (old_names ++ ["static_broadcasted_argnums"; "donate_argnums"]). rewrite existsb_app. clear B1 B2.
  destruct (existsb _ old_names); [reflexivity|]. cbn [bind orb]. destruct (existsb _ _) eqn:X; [reflexivity|]. cbn [bind].
  assert (P : forall v, put "donate_argnums" v (rest Pmap kw) = rest Pmap kw ++ [("donate_argnums", v)]).
  { intros v. cbn [existsb] in X. apply orb_false_iff in X as [_ X]. apply orb_false_iff in X as [X _]. apply has_lookup in X. assert (L : lookup "donate_argnums" (rest Pmap kw) = None) by (rewrite lookup_rest, X; reflexivity). clear - L.
    induction (rest Pmap kw) as [|[k w] l IH]; [reflexivity|]. cbn [lookup] in L. cbn [put app]. destruct (String.eqb "donate_argnums" k); [discriminate|]. rewrite IH by exact L. reflexivity. }
  unfold opt. change (lookup "donate" [("in_axes", given "in_axes" (VAny 0) kw); ("out_axes", given "out_axes" (VAny 0) kw); ("axis_name", given "axis_name" VNone kw); ("axis_size", given "axis_size" VNone kw); ("donate", given "donate" (VStr "none") kw)]) with (Some (given "donate" (VStr "none") kw)).
  cbv iota. destruct (given "donate" (VStr "none") kw) as [s| | |]; try reflexivity. cbn [is_str]. rewrite (String.eqb_sym "arrays" s). destruct (String.eqb_spec s "arrays") as [->|N1]; cbn [orb]; [cbn -[rest put]; rewrite P; reflexivity|].
  destruct (String.eqb_spec s "all") as [->|N2]; [cbn -[rest put]; rewrite P; reflexivity|]. destruct (String.eqb_spec s "warn") as [->|N3]; [cbn -[rest put]; rewrite P; reflexivity|]. destruct (String.eqb_spec s "none") as [->|N4]; [reflexivity|].
  cbn [is_str]. destruct (String.eqb_spec "all" s); [congruence|]. destruct (String.eqb_spec "warn" s); [congruence|]. destruct (String.eqb_spec "none" s); [congruence|]. reflexivity.
Qed.
Print Assumptions C133_pmap.
(** [filter_checkpoint], [assert_max_traces], [filter_primitive_transpose]: unknown names are TypeErrors; nothing else is checked. *)
Theorem C133_other : forall f kw, 
  (has "fun" kw = false -> call Checkpoint [f] kw = if forallb (fun e => String.eqb (fst e) "prevent_cse" || String.eqb (fst e) "policy") kw then Ok (Wrapped (mk_wrapper Checkpoint f [("prevent_cse", given "prevent_cse" (VAny 2) kw); ("policy", given "policy" VNone kw)] [] [])) else Err TypeError) /\
  (has "fn" kw = false -> call Max_traces [f] kw = match forallb (fun e => String.eqb (fst e) "max_traces") kw, lookup "max_traces" kw with true, Some v => Ok (Wrapped (mk_wrapper Max_traces f [("max_traces", v)] [] [])) | _, _ => Err TypeError end) /\
  (has "rule" kw = false -> call Transpose [f] kw = if forallb (fun e => String.eqb (fst e) "materialise_zeros") kw then Ok (Wrapped (mk_wrapper Transpose f [("materialise_zeros", given "materialise_zeros" (VAny 1) kw)] [] [])) else Err TypeError).
Proof.
  intros f kw.
  assert (E : forall d (Q : string -> bool), has (first d) kw = false -> (forall k, known d k = String.eqb k (first d) || Q k) -> rest d kw = List.filter (fun x => negb (Q (fst x))) kw).
  { intros d Q H HQ. unfold rest. apply has_lookup in H. apply lookup_none in H. induction kw as [|[k v] l IH]; [reflexivity|]. cbn [List.filter fst]. rewrite HQ, IH by (intros X; apply H; right; exact X). destruct (String.eqb_spec k (first d)) as [->|]; [exfalso; apply H; left; reflexivity|reflexivity]. }
  assert (F : forall Q : string -> bool, if forallb (fun e => Q (fst e)) kw then List.filter (fun x => negb (Q (fst x))) kw = [] else List.filter (fun x => negb (Q (fst x))) kw <> []).
  { clear E. intros Q. induction kw as [|[k v] l IH]; [reflexivity|]. cbn [forallb List.filter fst]. destruct (Q k); cbn [negb andb]; [exact IH|discriminate]. }
  split; [|split]; intros H; unfold call; cbn [first]; rewrite (has_lookup _ _ H); cbn [bind extra negb andb]; cbn zeta.
  - fold (rest Checkpoint kw). rewrite (E Checkpoint (fun k => String.eqb k "prevent_cse" || String.eqb k "policy") H) by (intros k; unfold known; cbn; rewrite orb_false_r; reflexivity).
    specialize (F (fun k => String.eqb k "prevent_cse" || String.eqb k "policy")). cbn beta in F. destruct (forallb _ kw); [rewrite F|destruct (List.filter _ kw); [congruence|reflexivity]]. cbn [negb]. unfold bind_options, given. cbn. destruct (lookup "prevent_cse" kw), (lookup "policy" kw); reflexivity.
  - fold (rest Max_traces kw). rewrite (E Max_traces (fun k => String.eqb k "max_traces") H) by (intros k; unfold known; cbn; rewrite orb_false_r; reflexivity).
    specialize (F (fun k => String.eqb k "max_traces")). cbn beta in F. destruct (forallb _ kw); [rewrite F|destruct (List.filter _ kw); [congruence|reflexivity]]. cbn [negb]. unfold bind_options. cbn. destruct (lookup "max_traces" kw); reflexivity.
  - fold (rest Transpose kw). rewrite (E Transpose (fun k => String.eqb k "materialise_zeros") H) by (intros k; unfold known; cbn; rewrite orb_false_r; reflexivity).
    specialize (F (fun k => String.eqb k "materialise_zeros")). cbn beta in F. destruct (forallb _ kw); [rewrite F|destruct (List.filter _ kw); [congruence|reflexivity]]. cbn [negb]. unfold bind_options, given. cbn. destruct (lookup "materialise_zeros" kw); reflexivity.
Qed.
Print Assumptions C133_other.
(** A function given twice, or two positional arguments. *)
Theorem C133_twice : forall d f g kw pos, (has (first d) kw = true -> call d [f] kw = Err TypeError) /\ call d (f :: g :: pos) kw = Err TypeError.
Proof.
  intros d f g kw pos. unfold call, has. split; [destruct (lookup (first d) kw) as [[| | |]|]; [reflexivity|reflexivity|reflexivity|reflexivity|discriminate]|]. destruct (lookup (first d) kw) as [[| | |]|]; reflexivity.
Qed.
Print Assumptions C133_twice.
(** The function may be given by its name. *)
Theorem C133_by_name : forall d f kw, lookup (first d) kw = Some (VFun f) -> call d [] kw = call d [f] (List.filter (fun x => negb (String.eqb (fst x) (first d))) kw).
Proof.
  intros d f kw L. set (kw' := List.filter _ kw). assert (Lk : forall k, lookup k kw' = if String.eqb k (first d) then None else lookup k kw) by (intros k; unfold kw'; rewrite (lookup_filter (fun k => negb (String.eqb k (first d)))); destruct (String.eqb k (first d)); reflexivity).
  assert (E : rest d kw' = rest d kw).
  { unfold rest, kw'. clear. induction kw as [|[k v] l IH]; [reflexivity|]. cbn [List.filter fst]. destruct (String.eqb_spec k (first d)) as [->|]; cbn [negb List.filter fst]; [rewrite known_first; exact IH|]. destruct (known d k); cbn [negb]; [|f_equal]; exact IH. }
  assert (B : bind_options d kw' = bind_options d kw).
  { rewrite !bind_options_eq. apply mapM_same. intros [k dv] Hin. unfold bound. cbn [fst snd]. rewrite Lk. destruct (String.eqb_spec k (first d)) as [->|]; [|reflexivity]. exfalso. apply (first_not_option d). change (first d) with (fst (first d, dv)). apply in_map. exact Hin. }
  unfold call. rewrite B. fold (rest d kw') (rest d kw). rewrite E, L, (Lk (first d)), String.eqb_refl. reflexivity.
Qed.
Print Assumptions C133_by_name.

Example C133_ex_by_name : call Jit [] [("fun", VFun 3); ("inline", VAny 7)] = Ok (Wrapped (mk_wrapper Jit 3 [("donate", VStr "none")] [("inline", VAny 7)] [false; false; false])).
Proof. reflexivity. Qed.
Example C133_ex_stages : exists p, call Jit [] [("donate", VStr "bogus"); ("inline", VAny 7)] = Ok (Partial p) /\ call_partial Jit p [3] [] = Err ValueError /\
  stages Jit p [[("donate", VStr "all")]; [("inline", VAny 8); ("donate", VStr "warn")]] 3 = Ok (Wrapped (mk_wrapper Jit 3 [("donate", VStr "warn")] [("inline", VAny 8)] [false; true; true])).
Proof. eexists. repeat split. Qed.
Example C133_ex_names : call Jit [3] [("static_argnums", VAny 0)] = Err ValueError /\ (exists p, call Jit [] [("static_argnums", VAny 0)] = Ok (Partial p)) /\ call Grad [3] [("argnums", VNone); ("holomorphic", VAny 2)] = Ok (Wrapped (mk_wrapper Grad 3 [("has_aux", VAny 1)] [("holomorphic", VAny 2)] [])) /\
  call Grad [3] [("argnums", VAny 0)] = Err ValueError /\ call Max_traces [3] [] = Err TypeError /\ call Checkpoint [3] [("policy", VAny 1)] = Ok (Wrapped (mk_wrapper Checkpoint 3 [("prevent_cse", VAny 2); ("policy", VAny 1)] [] [])) /\
  call Pmap [3] [("donate", VStr "arrays")] = Ok (Wrapped (mk_wrapper Pmap 3 [("in_axes", VAny 0); ("out_axes", VAny 0); ("axis_name", VNone); ("axis_size", VNone); ("donate", VStr "all")] [("donate_argnums", VAny 0)] [true])).
Proof. repeat split; eexists; reflexivity. Qed.
