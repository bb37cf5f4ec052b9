(** C124: modules carried through scans. *)
From Verif Require Import Filters_Proofs Filters_Props Tree_Rel Prim_Spec Prim_Proofs Leafwise Rollout_Model.

Section Props.
  Context {L B : Type}.
  Variable arr : L -> bool.
  Variable ty : L -> nat.
  Notation T := (tree L).

  (** Every leaf is an array. *)
  Definition only_arrays (t : T) : Prop := forall s, In s (leaves no_leaf t) -> exists a, s = Leaf a /\ arr a = true.
  (** No array, nothing below it. *)
  Definition absent (t : T) : Prop := t = TNone \/ exists b, t = Leaf b /\ arr b = false.
  (** [graft m0 m1 m2]: [m1] has arrays where [m0] has, of the same shapes and dtypes, in the same structure; [m2] is [m0] with the arrays
      of [m1]. *)
  Inductive graft : T -> T -> T -> Prop :=
  | g_array : forall a b, arr a = true -> arr b = true -> ty a = ty b -> graft (Leaf a) (Leaf b) (Leaf b)
  | g_static : forall a t, arr a = false -> absent t -> graft (Leaf a) t (Leaf a)
  | g_none : forall t, absent t -> graft TNone t TNone
  | g_node : forall k cs ds es, graft_list cs ds es -> graft (Node k cs) (Node k ds) (Node k es)
  with graft_list : list T -> list T -> list T -> Prop :=
  | gl_nil : graft_list [] [] []
  | gl_cons : forall c cs d ds e es, graft c d e -> graft_list cs ds es -> graft_list (c :: cs) (d :: ds) (e :: es).
  Scheme graft_i := Induction for graft Sort Prop with graft_list_i := Induction for graft_list Sort Prop.
  Combined Scheme graft_mut from graft_i, graft_list_i.

  (** A plain Python loop that carries the module; [reset] is what happens to it after each step. *)
  Inductive looped (step : T -> B -> res (T * T)) (reset : T -> T -> Prop) : T -> list B -> list T -> T -> Prop :=
  | lo_nil : forall m, looped step reset m [] [] m
  | lo_cons : forall m x xs m1 v m2 vs m', step m x = Ok (m1, v) -> only_arrays v -> reset m1 m2 -> looped step reset m2 xs vs m' ->
      looped step reset m (x :: xs) (v :: vs) m'.

  Notation dyn := (dynp arr). Notation sta := (stap arr).
  Definition tyof (t : T) : tree nat := tmap no_leaf (fun s => match s with Leaf a => Leaf (ty a) | TNone => TNone | Node k _ => Node k [] end) t.
  Lemma arrays_iff t : arrays arr t = true <-> only_arrays t.
  Proof.
    unfold arrays, only_arrays. rewrite forallb_forall. split; intros H s Hs; specialize (H s Hs).
    - destruct s; try discriminate. eexists. split; [reflexivity|exact H].
    - destruct H as (a & -> & Ha). exact Ha.
  Qed.
  Lemma arrays_dyn t : arrays arr (dyn t) = true.
  Proof. unfold arrays. rewrite dynp_leaves. apply forallb_forall. intros s Hs. apply filter_In in Hs. tauto. Qed.
  Lemma same_type_iff : forall x y, same_type ty x y = true <-> tyof x = tyof y.
  Proof.
    induction x as [a| |k cs IH] using tree_ind'; intros [b| |k' ds]; unfold tyof; cbn; try (split; discriminate).
    - rewrite Nat.eqb_eq. split; [intros ->; reflexivity|intros H; injection H; auto].
    - tauto.
    - rewrite Bool.andb_true_iff, Nat.eqb_eq.
      assert (G : forall ds, (fix go cs ds := match cs, ds with [], [] => true | c :: cs, d :: ds => same_type ty c d && go cs ds | _, _ => false end) cs ds = true <->
        map tyof cs = map tyof ds).
      { clear ds. induction cs as [|c cs IHcs]; intros [|d ds]; cbn; try (split; [reflexivity|reflexivity]); try (split; discriminate).
        inversion IH as [|? ? H1 H2]; subst. rewrite Bool.andb_true_iff, (H1 d), (IHcs H2 ds). split; [intros [-> ->]; reflexivity|intros H; injection H; auto]. }
      rewrite G. split; [intros [-> E]; f_equal; exact E|intros H; injection H; auto].
  Qed.
  Lemma combine_parts m : eqx_combine no_leaf [dyn m; sta m] = Ok m.
  Proof. apply (C01_partition_combine_identity L m _ _ (Leaf (SCall (on_leaf arr)))). apply partition_pred. Qed.

  Lemma absent_dyn t : absent t <-> dyn t = TNone.
  Proof.
    unfold absent, dynp. destruct t as [b| |k ds]; cbn.
    - destruct (arr b) eqn:E; split; try discriminate; auto.
      + intros [H|(b' & H & H')]; [discriminate|]. injection H as <-. congruence.
      + intros _. right. eauto.
    - split; auto.
    - split; [|discriminate]. intros [H|(b' & H & _)]; discriminate.
  Qed.
  Lemma dyn_node k cs : dyn (Node k cs) = Node k (map dyn cs).
  Proof. reflexivity. Qed.
  Lemma sta_node k cs : sta (Node k cs) = Node k (map sta cs).
  Proof. reflexivity. Qed.
  Lemma tyof_node k cs : tyof (Node k cs) = Node k (map tyof cs).
  Proof. reflexivity. Qed.
  Lemma graft_parts :
    (forall m0 m1 m2, graft m0 m1 m2 -> dyn m2 = dyn m1 /\ sta m2 = sta m0 /\ tyof (dyn m1) = tyof (dyn m0)) /\
    (forall cs ds es, graft_list cs ds es -> map dyn es = map dyn ds /\ map sta es = map sta cs /\ map tyof (map dyn ds) = map tyof (map dyn cs)).
  Proof.
    apply graft_mut.
    - intros a b Ha Hb E. unfold dynp, stap, tyof. cbn. rewrite Ha, Hb. cbn. rewrite E. auto.
    - intros a t Ha Ht. apply absent_dyn in Ht. rewrite Ht. unfold dynp, stap. cbn. rewrite Ha. auto.
    - intros t Ht. apply absent_dyn in Ht. rewrite Ht. auto.
    - intros k cs ds es _ (H1 & H2 & H3). rewrite !dyn_node, !sta_node, !tyof_node, H1, H2, H3. auto.
    - auto.
    - intros c cs d ds e es _ (A1 & A2 & A3) _ (B1 & B2 & B3). cbn [map]. rewrite A1, A2, A3, B1, B2, B3. auto.
  Qed.
  Lemma graft_ex : forall m0 m1, tyof (dyn m0) = tyof (dyn m1) -> exists m2, graft m0 m1 m2.
  Proof.
    induction m0 as [a| |k cs IH] using tree_ind'; intros m1 H.
    - unfold dynp at 1 in H. cbn in H. destruct (arr a) eqn:Ha; cbn in H.
      + destruct m1 as [b| |k ds]; try discriminate. unfold dynp in H. cbn in H. destruct (arr b) eqn:Hb; [|discriminate]. injection H as H. eexists. apply g_array; auto.
      + eexists. apply g_static; [exact Ha|]. apply absent_dyn. destruct (dyn m1); try discriminate. reflexivity.
    - eexists. apply g_none. apply absent_dyn. destruct (dyn m1); try discriminate. reflexivity.
    - destruct m1 as [b| |k' ds]; try discriminate; [unfold dynp in H; cbn in H; destruct (arr b); discriminate|].
      rewrite !dyn_node, !tyof_node in H. injection H as <- H.
      enough (exists es, graft_list cs ds es) as [es He] by (eexists; apply g_node; exact He).
      rewrite !map_map in H. revert ds H. induction cs as [|c cs IHcs]; intros [|d ds] H; try discriminate; [eexists; constructor|].
      inversion IH as [|? ? H1 H2]; subst. cbn [map] in H. injection H as E1 E2. destruct (H1 d E1) as [e He]. destruct (IHcs H2 ds E2) as [es Hes].
      eexists. constructor; eassumption.
  Qed.
  Lemma graft_fun : forall m0 m1 m2 m2', graft m0 m1 m2 -> graft m0 m1 m2' -> m2 = m2'.
  Proof.
    intros m0 m1 m2 m2' H H'. apply (proj1 graft_parts) in H as (A1 & A2 & _). apply (proj1 graft_parts) in H' as (B1 & B2 & _).
    pose proof (combine_parts m2) as C. rewrite A1, A2, <- B1, <- B2, combine_parts in C. congruence.
  Qed.

  Lemma graft_refl : forall m, graft m m m.
  Proof.
    induction m as [a| |k cs IH] using tree_ind'.
    - destruct (arr a) eqn:E; [apply g_array; auto|apply g_static; [exact E|right; eauto]].
    - apply g_none. left. reflexivity.
    - apply g_node. induction IH; constructor; auto.
  Qed.

  Section Fixed.
    Variable step : T -> B -> res (T * T).
    Variable m0 : T.
    Local Notation body := (fun carry x =>
      model <- eqx_combine no_leaf [carry; sta m0] ;;
      '(model', val) <- step model x ;;
      '(carry', _) <- eqx_partition no_leaf TNone model' (Leaf (SCall (on_leaf arr))) ;;
      Ok (carry', val)).
    Lemma body_ok m x : sta m = sta m0 -> body (dyn m) x = ('(m1, v) <- step m x ;; Ok (dyn m1, v)).
    Proof.
      intros E. cbv beta. rewrite <- E, combine_parts. cbn [bind]. destruct (step m x) as [[m1 v]|e]; cbn [bind]; [|reflexivity]. rewrite partition_pred. reflexivity.
    Qed.
    Lemma rollout_unfold xs : rollout arr ty step m0 xs = scan_steps arr ty body xs (dyn m0).
    Proof. unfold rollout, lax_scan. rewrite partition_pred. cbn [bind]. rewrite arrays_dyn. reflexivity. Qed.

    Lemma steps_exact : forall xs m c vs, sta m = sta m0 -> tyof (dyn m) = tyof (dyn m0) ->
      (scan_steps arr ty body xs (dyn m) = Ok (c, vs) <-> exists m', looped step (graft m0) m xs vs m' /\ c = dyn m').
    Proof.
      induction xs as [|x xs IH]; intros m c vs E1 E2.
      - cbn [scan_steps]. split; [intros H; injection H as <- <-; exists m; split; [constructor|reflexivity]|]. intros (m' & H & ->). inversion H; subst. reflexivity.
      - cbn [scan_steps]. rewrite (body_ok m x E1). split.
        + intros H. apply bind_ok in H as ([c' y] & H1 & H). apply bind_ok in H1 as ([m1 v] & HS & H1). injection H1 as <- <-.
          destruct (arrays arr (dyn m1) && arrays arr v && same_type ty (dyn m) (dyn m1)) eqn:C; [|discriminate].
          apply Bool.andb_true_iff in C as [C C2]. apply Bool.andb_true_iff in C as [_ C1]. apply arrays_iff in C1. apply same_type_iff in C2.
          apply bind_ok in H as ([c2 ys] & HR & H). injection H as <- <-.
          destruct (graft_ex m0 m1) as [m2 G]; [congruence|]. destruct (proj1 graft_parts _ _ _ G) as (G1 & G2 & G3).
          rewrite <- G1 in HR. apply IH in HR as (m' & R & ->); [|congruence|congruence]. exists m'. split; [|reflexivity]. econstructor; eassumption.
        + intros (m' & H & ->). inversion H as [|? ? ? m1 v m2 vs' ? HS HV G R]; subst. rewrite HS. cbn [bind].
          destruct (proj1 graft_parts _ _ _ G) as (G1 & G2 & G3). rewrite arrays_dyn, (proj2 (arrays_iff v) HV), (proj2 (same_type_iff _ _)) by congruence. cbn [andb].
          rewrite <- G1. assert (X : scan_steps arr ty body xs (dyn m2) = Ok (dyn m', vs')) by (apply IH; [congruence|congruence|]; eauto). rewrite X. reflexivity.
    Qed.
  End Fixed.

  (** C124. Exactly what the rollout computes: the plain loop, in which after each step everything but the arrays is reset to what it was
      before the loop. *)
  Theorem C124_exact : forall (step : T -> B -> res (T * T)) m xs c vs, rollout arr ty step m xs = Ok (c, vs) <->
    exists m' s, looped step (graft m) m xs vs m' /\ eqx_partition no_leaf TNone m' (Leaf (SCall (on_leaf arr))) = Ok (c, s).
  Proof.
    intros step m xs c vs. rewrite rollout_unfold, (steps_exact step m xs m c vs eq_refl eq_refl). split.
    - intros (m' & H & ->). exists m', (sta m'). split; [exact H|apply partition_pred].
    - intros (m' & s & H & E). rewrite partition_pred in E. injection E as <- _. eauto.
  Qed.

  (** C124. So if steps change arrays only, the rollout is the plain loop, and putting the final carry together with the static part gives its final
      module. *)
  Lemma looped_impl step (R S : T -> T -> Prop) : (forall a b, R a b -> S a b) -> forall m xs vs m', looped step R m xs vs m' -> looped step S m xs vs m'.
  Proof. intros H m xs vs m' HL. induction HL; econstructor; eauto. Qed.
  Theorem C124_plain : forall (step : T -> B -> res (T * T)) m xs vs m', (forall x n n' v, In x xs -> graft m n n -> step n x = Ok (n', v) -> graft m n' n') ->
    looped step eq m xs vs m' ->
    exists c, rollout arr ty step m xs = Ok (c, vs) /\ forall s, eqx_partition no_leaf TNone m (Leaf (SCall (on_leaf arr))) = Ok s -> eqx_combine no_leaf [c; snd s] = Ok m'.
  Proof.
    intros step m xs vs m' HK HL.
    assert (G : forall n, graft m n n -> looped step eq n xs vs m' -> looped step (graft m) n xs vs m' /\ graft m m' m').
    { clear HL. revert vs. induction xs as [|x xs IH]; intros vs n Hn HL; inversion HL as [|? ? ? m1 v m2 vs' ? HS HV G R]; subst; [split; [constructor|exact Hn]|].
      pose proof (HK x n m2 v (or_introl eq_refl) Hn HS) as G. destruct (IH (fun y n n' v Hy => HK y n n' v (or_intror Hy)) _ _ G R) as [I1 I2].
      split; [|exact I2]. econstructor; eassumption. }
    destruct (G m (graft_refl m) HL) as [G1 G2]. exists (dyn m'). split.
    - rewrite rollout_unfold. apply (steps_exact step m xs m); eauto.
    - intros s Hs. rewrite partition_pred in Hs. injection Hs as <-. cbn [snd]. destruct (proj1 graft_parts _ _ _ G2) as (_ & E & _). rewrite <- E. apply combine_parts.
  Qed.
  (** C124. The documented rollout: the module is called on every input. *)
  Theorem C124_calls : forall list_kind (call : T -> B -> res T) m (xs : list B),
    (forall x, In x xs -> exists v, call m x = Ok v /\ only_arrays v) ->
    exists c vs, rollout arr ty (call_step list_kind call) m xs = Ok (c, map (fun v => Node list_kind [v]) vs) /\ Forall2 (fun x v => call m x = Ok v) xs vs.
  Proof.
    intros k call m xs H.
    assert (HE : exists vs, Forall2 (fun x v => call m x = Ok v) xs vs /\ looped (call_step k call) (graft m) m xs (map (fun v => Node k [v]) vs) m).
    { induction xs as [|x xs IH]; [exists []; split; constructor|]. destruct (H x (or_introl eq_refl)) as (v & Hv & Ha). destruct IH as (vs & F & R); [intros; apply H; right; assumption|].
      exists (v :: vs). split; [constructor; assumption|]. cbn [map]. econstructor; [unfold call_step; rewrite Hv; reflexivity| |apply graft_refl|exact R].
      intros s Hs. cbn in Hs. rewrite app_nil_r in Hs. apply Ha. exact Hs. }
    destruct HE as (vs & F & R). exists (dyn m), vs. split; [|exact F]. rewrite rollout_unfold. apply (steps_exact _ m xs m); eauto.
  Qed.

  (** C124. Scanning over the module itself is a [TypeError] if it has any leaf that is not an array; if there is none, also in what the steps return, it is the
      rollout. *)
  Lemma arrays_only_dyn t : only_arrays t -> dyn t = t.
  Proof.
    unfold only_arrays, dynp. induction t as [a| |k cs IH] using tree_ind'; intros H; cbn in *.
    - destruct (H _ (or_introl eq_refl)) as (a' & E & Ha). injection E as <-. rewrite Ha. reflexivity.
    - reflexivity.
    - f_equal. rewrite Forall_forall in IH. rewrite <- (map_id cs) at 2. apply map_ext_in. intros c Hc. apply IH; [exact Hc|].
      intros s Hs. apply H. apply in_concat. exists (leaves no_leaf c). split; [apply in_map; exact Hc|exact Hs].
  Qed.
  Theorem C124_direct_fails : forall (step : T -> B -> res (T * T)) m xs s, In s (leaves no_leaf m) -> (forall a, s = Leaf a -> arr a = false) -> lax_scan arr ty step m xs = Err TypeError.
  Proof.
    intros step m xs s Hs Ha. unfold lax_scan. destruct (arrays arr m) eqn:E; [|reflexivity]. apply arrays_iff in E. destruct (E s Hs) as (a & -> & Ha'). rewrite (Ha a eq_refl) in Ha'. discriminate.
  Qed.
  Theorem C124_direct : forall (step : T -> B -> res (T * T)) m xs, only_arrays m -> (forall x n n' v, In x xs -> step n x = Ok (n', v) -> only_arrays n') ->
    lax_scan arr ty step m xs = rollout arr ty step m xs.
  Proof.
    intros step m xs Hm HS. rewrite rollout_unfold. unfold lax_scan. rewrite (proj2 (arrays_iff m) Hm). rewrite (arrays_only_dyn m Hm).
    assert (G : forall n, only_arrays n -> tyof n = tyof m -> sta n = sta m -> scan_steps arr ty step xs n = scan_steps arr ty (fun carry x =>
      model <- eqx_combine no_leaf [carry; sta m] ;; '(model', val) <- step model x ;;
      '(carry', _) <- eqx_partition no_leaf TNone model' (Leaf (SCall (on_leaf arr))) ;; Ok (carry', val)) xs n); [|apply G; auto].
    induction xs as [|x xs IH]; intros n Hn E1 E2; [reflexivity|]. cbn [scan_steps].
    pose proof (body_ok step m n x E2) as Hb. rewrite (arrays_only_dyn n Hn) in Hb. rewrite Hb. destruct (step n x) as [[n1 v]|e] eqn:Hx; cbn [bind]; [|reflexivity].
    pose proof (HS x n n1 v (or_introl eq_refl) Hx) as H1. rewrite (arrays_only_dyn n1 H1).
    destruct (arrays arr n1 && arrays arr v && same_type ty n n1) eqn:C; [|reflexivity]. apply Bool.andb_true_iff in C as [_ C]. apply same_type_iff in C.
    rewrite IH; [reflexivity|intros; eapply HS; [right|]; eassumption|exact H1|congruence|].
    rewrite <- E2. destruct (graft_ex n n1) as [n2 G]; [rewrite !arrays_only_dyn by assumption; exact C|].
    destruct (proj1 graft_parts _ _ _ G) as (G1 & G2 & _).
    assert (n2 = n1); [|subst n2; exact G2].
    assert (SN : forall a b c, graft a b c -> only_arrays a -> only_arrays b -> c = b).
    { clear. intros a b c G. revert a b c G. fix SN 4. intros a b c G Ha Hb. destruct G as [a b Ea Eb E|a t Ea At|t At|k cs ds es GL].
      - reflexivity.
      - destruct (Ha _ (or_introl eq_refl)) as (a' & E & Ha'). injection E as <-. congruence.
      - destruct At as [-> |(b & -> & Eb)]; [reflexivity|]. destruct (Hb _ (or_introl eq_refl)) as (b' & E & Hb'). injection E as <-. congruence.
      - f_equal. assert (GC : forall c, In c cs -> only_arrays c) by (intros c Hc s Hs; apply Ha; cbn; apply in_concat; exists (leaves no_leaf c); split; [apply in_map|]; assumption).
        assert (GD : forall c, In c ds -> only_arrays c) by (intros c Hc s Hs; apply Hb; cbn; apply in_concat; exists (leaves no_leaf c); split; [apply in_map|]; assumption).
        clear Ha Hb. induction GL as [|c cs d ds e es G GL IH]; [reflexivity|]. f_equal; [apply (SN c d e G); [apply GC|apply GD]; left; reflexivity|].
        apply IH; intros; [apply GC|apply GD]; right; assumption. }
    apply (SN n n1); assumption.
  Qed.
End Props.
Print Assumptions C124_exact.
Print Assumptions C124_plain.
Print Assumptions C124_calls.
Print Assumptions C124_direct_fails.
Print Assumptions C124_direct.

(** C124. Changes of anything but arrays are lost without an error: a module that counts its calls in a Python number, and returns the count. *)
Definition ex_count (m : tree nat) (x : nat) : res (tree nat * tree nat) :=
  match m with Node k [Leaf w; Leaf n] => Ok (Node k [Leaf w; Leaf (n + 2)], Leaf (S n)) | _ => Err TypeError end.
Theorem C124_static_refuted :
  (exists m', looped Nat.odd ex_count eq (Node 3 [Leaf 1; Leaf 0]) [7; 7; 7] [Leaf 1; Leaf 3; Leaf 5] m') /\
  rollout Nat.odd (fun _ => 0) ex_count (Node 3 [Leaf 1; Leaf 0]) [7; 7; 7] = Ok (Node 3 [Leaf 1; TNone], [Leaf 1; Leaf 1; Leaf 1]).
Proof.
  split; [|reflexivity]. eexists. repeat (econstructor; [reflexivity|intros s [<-|[]]; eexists; split; reflexivity|reflexivity|]). constructor.
Qed.
Print Assumptions C124_static_refuted.
(** The documented rollout on a module with an array 5 and a function 2; a module whose array changes; a change of an array's type. *)
Example C124_ex :
  rollout Nat.odd (fun _ => 0) (call_step 1 (fun m x => Ok (Leaf (2 * x + 5)))) (Node 3 [Leaf 5; Leaf 2]) [1; 2] = Ok (Node 3 [Leaf 5; TNone], [Node 1 [Leaf 7]; Node 1 [Leaf 9]]) /\
  rollout Nat.odd (fun _ => 0) (fun m x => match m with Node k [Leaf w; f] => Ok (Node k [Leaf (w + 2 * x); f], Leaf w) | _ => Err TypeError end) (Node 3 [Leaf 5; Leaf 2]) [1; 2]
    = Ok (Node 3 [Leaf 11; TNone], [Leaf 5; Leaf 7]) /\
  rollout Nat.odd (fun a => a) (fun m x => match m with Node k [Leaf w; f] => Ok (Node k [Leaf (w + 2 * x); f], Leaf w) | _ => Err TypeError end) (Node 3 [Leaf 5; Leaf 2]) [1; 2]
    = Err TypeError /\
  lax_scan Nat.odd (fun _ => 0) (call_step 1 (fun m x => Ok (Leaf (2 * x + 5)))) (Node 3 [Leaf 5; Leaf 2]) [1; 2] = Err TypeError.
Proof. repeat split; reflexivity. Qed.
