From Verif Require Export TreeCheck_Spec.

Lemma leads_app g n p m : leads g n p m -> forall q o, leads g m q o -> leads g n (p ++ q) o.
Proof. induction 1; intros; cbn; auto. econstructor; eauto. Qed.
Lemma leads_proper g n i p m : leads g n (i :: p) m -> proper g n.
Proof. intros H; inv H. destruct cs; [destruct i; discriminate|]. eexists _, _; eauto. Qed.
Lemma leads_det g n p m : leads g n p m -> forall m', leads g n p m' -> m = m'.
Proof.
  induction 1; intros m' H'; inv H'; auto. rewrite H in H4; inv H4. rewrite H0 in H6; inv H6. auto.
Qed.
Lemma leads_split g root q n : leads g root q n -> forall s m, leads g root (q ++ s) m -> leads g n s m.
Proof.
  induction 1 as [n|n cs i c p m E HI HL IH]; intros s o Ho; cbn in Ho; auto.
  inversion Ho as [|n' cs' i' c' p' m' E' HI' HL']; subst. rewrite E in E'. injection E' as <-.
  rewrite HI in HI'. injection HI' as <-. auto.
Qed.
Lemma not_proper_leads g n p m : ~ proper g n -> leads g n p m -> p = [] /\ m = n.
Proof. intros HN H. inv H; auto. exfalso. apply HN. eapply (leads_proper g n i p0 m). econstructor; eauto. Qed.

Lemma put_same d n b : put d n b n = Some b.
Proof. unfold put. rewrite Nat.eqb_refl; auto. Qed.
Lemma put_other d n b m : m <> n -> put d n b m = d m.
Proof. unfold put. intros H. apply Nat.eqb_neq in H. rewrite H; auto. Qed.

(** The three ways a call can go. *)
Lemma flatten_cases g n : 
  (exists cs, subnodes g n = Some cs /\ In n cs /\ flatten_one_level g n = Raised ImmediateSelf) \/
  (~ proper g n /\ (flatten_one_level g n = Passed None \/ flatten_one_level g n = Passed (Some []))) \/
  (exists c cs, subnodes g n = Some (c :: cs) /\ flatten_one_level g n = Passed (Some (c :: cs))).
Proof.
  unfold flatten_one_level. destruct (subnodes g n) as [cs|] eqn:E.
  - destruct (existsb (Nat.eqb n) cs) eqn:EX.
    + left. exists cs. split; auto. split; auto. apply existsb_exists in EX as (x & Hx & Hn).
      apply Nat.eqb_eq in Hn. congruence.
    + right. destruct cs as [|c cs]; [left|right; eauto].
      split; auto. intros (c & cs & H). congruence.
  - right; left. split; auto. intros (c & cs & H). congruence.
Qed.

(** Success. *)
Definition Post g (R : list nat -> nat -> Prop) (d d' : nodes) : Prop :=
  (forall p m, R p m -> proper g m -> d m = None /\ d' m = Some false) /\
  (forall m, d m <> None -> d' m = d m) /\
  (forall m, d' m <> None -> d m <> None \/ (proper g m /\ exists p, R p m)) /\
  (forall p q m, R p m -> R q m -> proper g m -> p = q).

Lemma check_ok g : forall fuel n d d', check fuel g n d = Passed d' -> Post g (leads g n) d d'.
Proof.
  induction fuel as [|fuel IH]; intros n d d' H; cbn [check] in H;
    destruct (flatten_cases g n) as [(cs & E & Hin & EF)|[[HN EF]|(c & cs & E & EF)]].
  - rewrite EF in H. discriminate.
  - assert (d' = d) as -> by (destruct EF as [EF|EF]; rewrite EF in H; cbn in H; congruence).
    split; [|split; [auto|split; [auto|]]].
    + intros p m HL HP. apply not_proper_leads in HL as [_ ->]; tauto.
    + intros p q m HL _ HP. apply not_proper_leads in HL as [_ ->]; tauto.
  - rewrite EF in H. cbn in H. destruct (d n) as [[]|]; discriminate.
  - rewrite EF in H. discriminate.
  - assert (d' = d) as -> by (destruct EF as [EF|EF]; rewrite EF in H; cbn in H; congruence).
    split; [|split; [auto|split; [auto|]]].
    + intros p m HL HP. apply not_proper_leads in HL as [_ ->]; tauto.
    + intros p q m HL _ HP. apply not_proper_leads in HL as [_ ->]; tauto.
  - rewrite EF in H. cbn [cbind] in H. destruct (d n) as [[]|] eqn:Ed; try discriminate.
    destruct (each (check fuel g) (c :: cs) (put d n true)) as [d1|] eqn:EE; [|discriminate].
    cbn [cbind] in H. injection H as <-.
    (* the children *)
    assert (HC : forall cs d d1, each (check fuel g) cs d = Passed d1 ->
      Post g (fun p m => exists i q c, p = i :: q /\ nth_error cs i = Some c /\ leads g c q m) d d1).
    { clear -IH. induction cs as [|c cs IHc]; intros d d1 H; cbn [each] in H.
      - injection H as <-. split; [|split; [auto|split; [auto|]]].
        + intros p m (i & q & c & _ & HI & _). destruct i; discriminate.
        + intros p q m (i & q' & c & _ & HI & _). destruct i; discriminate.
      - destruct (check fuel g c d) as [d2|] eqn:E2; [|discriminate]. cbn [cbind] in H.
        apply IH in E2 as (A1 & A2 & A3 & A4). apply IHc in H as (B1 & B2 & B3 & B4).
        split; [|split; [|split]].
        + intros p m (i & q & c' & -> & HI & HL) HP. destruct i as [|i]; cbn in HI.
          * inv HI. destruct (A1 q m HL HP) as [X1 X2]. split; auto. rewrite B2; congruence.
          * destruct (B1 (i :: q) m) as [X1 X2]; [exists i, q, c'; auto|auto|]. split; auto.
            destruct (d m) eqn:Edm; auto. rewrite A2 in X1 by congruence. congruence.
        + intros m Hm. rewrite B2; [apply A2; auto|]. rewrite A2; auto.
        + intros m Hm. apply B3 in Hm as [Hm|(HP & p & i & q & c' & -> & HI & HL)].
          * apply A3 in Hm as [Hm|(HP & p & HL)]; auto. right. split; auto. exists (0 :: p), 0, p, c. auto.
          * right. split; auto. exists (S i :: q), (S i), q, c'. auto.
        + intros p q m (i & p' & c1 & -> & HI & HL) (j & q' & c2 & -> & HJ & HL') HP.
          destruct i as [|i], j as [|j]; cbn in HI, HJ.
          * inv HI; inv HJ. f_equal. eauto.
          * inv HI. exfalso. destruct (A1 p' m HL HP) as [_ X].
            destruct (B1 (j :: q') m) as [Y _]; [exists j, q', c2; auto|auto|]. congruence.
          * inv HJ. exfalso. destruct (A1 q' m HL' HP) as [_ X].
            destruct (B1 (i :: p') m) as [Y _]; [exists i, p', c1; auto|auto|]. congruence.
          * assert (i :: p' = j :: q') as X.
            { apply (B4 _ _ m); auto; [exists i, p', c1|exists j, q', c2]; auto. }
            congruence. }
    apply HC in EE as (A1 & A2 & A3 & A4). clear HC.
    assert (HDn : forall p m, leads g n p m -> p = [] /\ m = n \/
      exists i q c0, p = i :: q /\ nth_error (c :: cs) i = Some c0 /\ leads g c0 q m).
    { intros p m HL. inv HL; auto. rewrite E in H; inv H. right. eauto 8. }
    assert (Hpn : proper g n) by (eexists _, _; eauto).
    split; [|split; [|split]].
    + intros p m HL HP. destruct (HDn p m HL) as [[-> ->]|HX]; [split; [auto|apply put_same]|].
      destruct (A1 p m HX HP) as [X1 X2]. destruct (Nat.eq_dec m n) as [->|Hmn].
      * rewrite put_same in X1. discriminate.
      * rewrite put_other in * by auto. auto.
    + intros m Hm. destruct (Nat.eq_dec m n) as [->|Hmn]; [congruence|].
      rewrite put_other by auto. rewrite A2; rewrite put_other; auto.
    + intros m Hm. destruct (Nat.eq_dec m n) as [->|Hmn].
      * right. split; auto. exists []. constructor.
      * rewrite put_other in Hm by auto. apply A3 in Hm as [Hm|(HP & p & i & q & c' & -> & HI & HL)].
        -- rewrite put_other in Hm by auto. auto.
        -- right. split; auto. exists (i :: q). econstructor; eauto.
    + intros p q m HL HL' HP.
      assert (HNB : forall i q c0, nth_error (c :: cs) i = Some c0 -> leads g c0 q n -> False).
      { intros i q0 c0 HI HLn. destruct (A1 (i :: q0) n) as [X _]; [exists i, q0, c0; auto|auto|].
        rewrite put_same in X. discriminate. }
      destruct (HDn p m HL) as [[-> ->]|HX], (HDn q _ HL') as [[-> Em]|HX']; auto.
      * destruct HX' as (i & q0 & c0 & _ & HI & HL0). exfalso; eauto.
      * subst m. destruct HX as (i & q0 & c0 & _ & HI & HL0). exfalso; eauto.
      * eapply A4; eauto.
Qed.

(** Failure: the order in which paths are visited. *)
Definition before (q p : list nat) : Prop :=
  exists c i r, p = c ++ i :: r /\ (q = c \/ exists j s, q = c ++ j :: s /\ j < i).
Lemma before_irrefl p : ~ before p p.
Proof.
  intros (c & i & r & E & [E'|(j & s & E' & L)]).
  - rewrite E' in E. apply (f_equal (@length _)) in E. rewrite app_length in E; cbn in E; lia.
  - rewrite E' in E. apply app_inv_head in E. inv E. lia.
Qed.
Lemma before_ext q p i : before q p -> before q (p ++ [i]).
Proof.
  intros (c & j & r & -> & H). exists c, j, (r ++ [i]). split; auto. rewrite <- app_assoc; auto.
Qed.
Lemma before_parent p i : before p (p ++ [i]).
Proof. exists p, i, []. auto. Qed.
Lemma before_sibling p i j s : j < i -> before (p ++ j :: s) (p ++ [i]).
Proof. intros H. exists p, i, []. split; auto. right. exists j, s; auto. Qed.

(** What the dictionary holds while at path [p] below [root]. *)
Definition Known g root p (d : nodes) : Prop := forall m b, d m = Some b ->
  exists q, leads g root q m /\ before q p /\ (b = true -> exists i r, p = q ++ i :: r).
Definition grew g (d d' : nodes) n p root :=
  forall m b, d' m = Some b -> d m = Some b \/ (b = false /\ exists q, leads g n q m /\ leads g root (p ++ q) m).

Definition Bad g root (e : check_error) : Prop :=
  match e with
  | Duplicate => exists p q m, leads g root p m /\ leads g root q m /\ proper g m /\ p <> q
  | _ => exists p q m, leads g root p m /\ leads g m q m /\ proper g m /\ q <> []
  end.

Lemma check_err g root : forall fuel n d p, leads g root p n -> Known g root p d ->
  match check fuel g n d with
  | Passed d' => grew g d d' n p root
  | Raised e => e = OutOfFuel \/ Bad g root e
  end.
Proof.
  induction fuel as [|fuel IH]; intros n d p HL HK; cbn [check];
    destruct (flatten_cases g n) as [(cs & E & Hin & EF)|[[HN EF]|(c & cs & E & EF)]].
  1,4: rewrite EF; cbn [cbind]; right; cbn; apply In_nth_error in Hin as [i Hi];
    exists p, [i], n; split; [auto|split; [econstructor; eauto; constructor|split; [|discriminate]]];
    destruct cs as [|c' cs']; [destruct i; discriminate|eexists _, _; eauto].
  1,3: destruct EF as [EF|EF]; rewrite EF; cbn [cbind]; intros m b; auto.
  all: rewrite EF; cbn [cbind]; assert (Hpn : proper g n) by (eexists _, _; eauto).
  all: destruct (d n) as [[]|] eqn:Ed.
  1,4: right; destruct (HK n true Ed) as (q & Hq & HB & HT); destruct (HT eq_refl) as (i & r & ->); cbn;
    exists q, (i :: r), n; split; [auto|split; [|split; [auto|discriminate]]].
  1,2: eapply leads_split; eauto.
  1,3: right; destruct (HK n false Ed) as (q & Hq & HB & _); cbn; exists p, q, n;
    split; [auto|split; [auto|split; [auto|]]]; intros ->; eapply before_irrefl; eauto.
  - auto.
  - (* the children *)
    assert (HC : forall cs' k d0, (forall j c', nth_error cs' j = Some c' -> nth_error (c :: cs) (k + j) = Some c') ->
      Known g root (p ++ [k]) d0 ->
      match each (check fuel g) cs' d0 with
      | Passed d' => forall m b, d' m = Some b -> d0 m = Some b \/
          (b = false /\ exists q, leads g n q m /\ leads g root (p ++ q) m)
      | Raised e => e = OutOfFuel \/ Bad g root e
      end).
    { induction cs' as [|c' cs' IHc]; intros k d0 HI HK0; cbn [each]; [auto|].
      assert (Hk : nth_error (c :: cs) k = Some c').
      { rewrite <- (HI 0 c' eq_refl). f_equal. lia. }
      assert (HLc : leads g root (p ++ [k]) c').
      { eapply leads_app; eauto. econstructor; eauto. constructor. }
      specialize (IH c' d0 (p ++ [k]) HLc HK0). destruct (check fuel g c' d0) as [d1|]; cbn [cbind]; auto.
      assert (HG : forall m b, d1 m = Some b -> d0 m = Some b \/
          (b = false /\ exists q, leads g n (k :: q) m /\ leads g root (p ++ k :: q) m)).
      { intros m b Hm. apply IH in Hm as [Hm|(Hb & q & HLq & HLr)]; auto. right. split; auto.
        exists q. split; [econstructor; eauto|]. rewrite <- app_assoc in HLr. exact HLr. }
      specialize (IHc (S k) d1).
      destruct (each (check fuel g) cs' d1) as [d2|]; cbn [cbind].
      - intros m b Hm. apply IHc in Hm as [Hm|Hm]; auto.
        + apply HG in Hm as [Hm|(Hb & q & H1 & H2)]; auto. right. split; auto. exists (k :: q); auto.
        + intros j c0 Hj. specialize (HI (S j) c0 Hj). rewrite <- HI. f_equal. lia.
        + intros m0 b0 Hm0. apply HG in Hm0 as [Hm0|(Hb & q & H1 & H2)].
          * destruct (HK0 m0 b0 Hm0) as (q & Hq & HB & HT). exists q. split; auto.
            clear -HB HT. split.
            -- destruct HB as (c0 & i & r & E & H). 
               destruct (@exists_last _ (i :: r) ltac:(discriminate)) as (r' & x & Er).
               rewrite Er in E. rewrite app_assoc in E. apply app_inj_tail in E as [E1 E2]. subst x.
               destruct r' as [|y r'].
               ++ cbn in Er. inv Er. rewrite app_nil_r. exists c0, (S k), []. split; auto.
                  destruct H as [H|(j & s & H & L)]; auto. right. exists j, s. split; auto; lia.
               ++ cbn in Er. inv Er. exists c0, y, (r' ++ [S k]). split; auto.
                  rewrite <- app_assoc. cbn. auto.
            -- intros Hb. destruct (HT Hb) as (i & r & E).
               destruct (@exists_last _ (i :: r) ltac:(discriminate)) as (r' & x & Er).
               rewrite Er in E. rewrite app_assoc in E. apply app_inj_tail in E as [E1 E2]. subst x.
               destruct r' as [|y r']; [exists (S k), []; rewrite E1, app_nil_r; auto|].
               exists y, (r' ++ [S k]). rewrite E1, <- app_assoc. auto.
          * exists (p ++ k :: q). split; auto. split; [apply before_sibling; lia|]. congruence.
      - apply IHc.
        + intros j c0 Hj. specialize (HI (S j) c0 Hj). rewrite <- HI. f_equal. lia.
        + intros m0 b0 Hm0. apply HG in Hm0 as [Hm0|(Hb & q & H1 & H2)].
          * destruct (HK0 m0 b0 Hm0) as (q & Hq & HB & HT). exists q. split; auto.
            clear -HB HT. split.
            -- destruct HB as (c0 & i & r & E & H). 
               destruct (@exists_last _ (i :: r) ltac:(discriminate)) as (r' & x & Er).
               rewrite Er in E. rewrite app_assoc in E. apply app_inj_tail in E as [E1 E2]. subst x.
               destruct r' as [|y r'].
               ++ cbn in Er. inv Er. rewrite app_nil_r. exists c0, (S k), []. split; auto.
                  destruct H as [H|(j & s & H & L)]; auto. right. exists j, s. split; auto; lia.
               ++ cbn in Er. inv Er. exists c0, y, (r' ++ [S k]). split; auto.
                  rewrite <- app_assoc. cbn. auto.
            -- intros Hb. destruct (HT Hb) as (i & r & E).
               destruct (@exists_last _ (i :: r) ltac:(discriminate)) as (r' & x & Er).
               rewrite Er in E. rewrite app_assoc in E. apply app_inj_tail in E as [E1 E2]. subst x.
               destruct r' as [|y r']; [exists (S k), []; rewrite E1, app_nil_r; auto|].
               exists y, (r' ++ [S k]). rewrite E1, <- app_assoc. auto.
          * exists (p ++ k :: q). split; auto. split; [apply before_sibling; lia|]. congruence. }
    specialize (HC (c :: cs) 0 (put d n true)).
    assert (HK1 : Known g root (p ++ [0]) (put d n true)).
    { intros m b Hm. destruct (Nat.eq_dec m n) as [->|Hmn].
      - exists p. split; auto. split; [apply before_parent|]. intros _. exists 0, []; auto.
      - rewrite put_other in Hm by auto. destruct (HK m b Hm) as (q & Hq & HB & HT). exists q.
        split; auto. split; [apply before_ext; auto|]. intros Hb. destruct (HT Hb) as (i & r & ->).
        exists i, (r ++ [0]). rewrite <- app_assoc; auto. }
    specialize (HC (fun j c' H => H) HK1).
    destruct (each (check fuel g) (c :: cs) (put d n true)) as [d1|]; cbn [cbind]; auto.
    intros m b Hm. destruct (Nat.eq_dec m n) as [->|Hmn].
    + rewrite put_same in Hm. injection Hm as <-. right. split; auto. exists []. rewrite app_nil_r.
      split; [constructor|auto].
    + rewrite put_other in Hm by auto. apply HC in Hm as [Hm|Hm]; auto.
      rewrite put_other in Hm by auto. auto.
Qed.

(** Fuel: one unit per object of the graph is enough. *)
Definition free (g : graph) (d : nodes) : nat :=
  length (List.filter (fun m => match d m with None => true | _ => false end) (seq 0 (length g))).

Lemma filter_le {A} (f h : A -> bool) l : (forall x, In x l -> f x = true -> h x = true) ->
  length (List.filter f l) <= length (List.filter h l).
Proof.
  induction l as [|x l IH]; intros H; cbn; auto.
  assert (length (List.filter f l) <= length (List.filter h l)) by (apply IH; intros; apply H; auto; right; auto).
  destruct (f x) eqn:E1; [rewrite (H x (or_introl eq_refl) E1); cbn; lia|]. destruct (h x); cbn; lia.
Qed.
Lemma free_le g d d' : (forall m, d m <> None -> d' m <> None) -> free g d' <= free g d.
Proof.
  intros H. unfold free. apply filter_le. intros x _ Hx. destruct (d x) eqn:E; auto.
  destruct (d' x) eqn:E'; [discriminate|]. exfalso. apply (H x); congruence.
Qed.
Lemma filter_lt {A} (f h : A -> bool) l x : (forall x, In x l -> f x = true -> h x = true) ->
  In x l -> f x = false -> h x = true -> length (List.filter f l) < length (List.filter h l).
Proof.
  induction l as [|y l IH]; intros H Hin Hf Hh; [inv Hin|]. cbn.
  assert (HH : forall x, In x l -> f x = true -> h x = true) by (intros; apply H; auto; right; auto).
  pose proof (filter_le f h l HH) as HLe.
  destruct Hin as [->|Hin].
  - rewrite Hf, Hh. cbn. lia.
  - specialize (IH HH Hin Hf Hh). destruct (f y) eqn:E1; [rewrite (H y (or_introl eq_refl) E1); cbn; lia|].
    destruct (h y); cbn; lia.
Qed.
Lemma free_put g d n b : proper g n -> d n = None -> free g (put d n b) < free g d.
Proof.
  intros (c & cs & E) Hd. unfold free. apply (filter_lt _ _ _ n).
  - intros x _ Hx. destruct (Nat.eq_dec x n) as [->|Hxn]; [rewrite put_same in Hx; discriminate|].
    rewrite put_other in Hx; auto.
  - apply in_seq. unfold subnodes in E. destruct (nth_error g n) eqn:En; [|discriminate].
    apply nth_error_lt in En. lia.
  - rewrite put_same; auto.
  - rewrite Hd; auto.
Qed.

Lemma check_fuel g : forall fuel n d, free g d <= fuel -> check fuel g n d <> Raised OutOfFuel.
Proof.
  induction fuel as [|fuel IH]; intros n d HF; cbn [check];
    destruct (flatten_cases g n) as [(cs & E & Hin & EF)|[[HN EF]|(c & cs & E & EF)]].
  1,4: rewrite EF; discriminate.
  1,3: destruct EF as [EF|EF]; rewrite EF; discriminate.
  all: rewrite EF; cbn [cbind]; assert (Hpn : proper g n) by (eexists _, _; eauto).
  all: destruct (d n) as [[]|] eqn:Ed; try discriminate.
  - pose proof (free_put g d n true Hpn Ed). lia.
  - pose proof (free_put g d n true Hpn Ed) as HP.
    assert (HE : forall cs d, free g d <= fuel -> each (check fuel g) cs d <> Raised OutOfFuel).
    { clear -IH. induction cs as [|c cs IHc]; intros d HF; cbn [each]; [discriminate|].
      specialize (IH c d HF). destruct (check fuel g c d) as [d1|e] eqn:E1; cbn [cbind]; [|congruence].
      apply IHc. apply check_ok in E1 as (_ & A2 & _).
      etransitivity; [|exact HF]. apply free_le. intros m Hm. rewrite A2; auto. }
    specialize (HE (c :: cs) (put d n true) ltac:(lia)).
    destruct (each (check fuel g) (c :: cs) (put d n true)); cbn [cbind]; congruence.
Qed.

Lemma free_le_length g d : free g d <= length g.
Proof.
  unfold free. etransitivity; [apply filter_le with (h := fun _ => true); auto|].
  assert (forall l : list nat, List.filter (fun _ => true) l = l) as -> by (induction l; cbn; congruence).
  rewrite seq_length; auto.
Qed.
Lemma terminates g root : tree_check g root <> Raised OutOfFuel.
Proof.
  unfold tree_check. pose proof (check_fuel g (length g) root (fun _ => None) (free_le_length _ _)).
  destruct (check (length g) g root (fun _ => None)); cbn; congruence.
Qed.
Lemma passes_iff g root : tree_check g root = Passed tt <->
  forall p q m, leads g root p m -> leads g root q m -> proper g m -> p = q.
Proof.
  split.
  - unfold tree_check. destruct (check (length g) g root (fun _ => None)) as [d|] eqn:E; [|discriminate].
    intros _. apply check_ok in E as (_ & _ & _ & A4). exact A4.
  - intros H. pose proof (terminates g root) as HT. unfold tree_check in *.
    pose proof (check_err g root (length g) root (fun _ => None) [] (leads_here _ _)) as HE.
    destruct (check (length g) g root (fun _ => None)) as [d|e]; cbn [cbind] in *; auto.
    destruct HE as [->|HB]; [intros m b Hm; discriminate|congruence|]. exfalso.
    assert (X : forall p q m, leads g root p m -> leads g m q m -> proper g m -> q <> [] -> False).
    { intros p q m HL Hc HP HQ. assert (p = p ++ q) as EQ by (apply (H p (p ++ q) m); auto; eapply leads_app; eauto).
      apply HQ. rewrite <- (app_nil_r p) in EQ at 1. apply app_inv_head in EQ. auto. }
    destruct e; cbn in HB.
    1,2,4: destruct HB as (p & q & m & A & B & C & D); exact (X p q m A B C D).
    destruct HB as (p & q & m & A & B & C & D). apply D. eauto.
Qed.
Lemma raises_why g root e : tree_check g root = Raised e -> Bad g root e.
Proof.
  intros H. pose proof (terminates g root) as HT. unfold tree_check in *.
  pose proof (check_err g root (length g) root (fun _ => None) [] (leads_here _ _)) as HE.
  destruct (check (length g) g root (fun _ => None)) as [d|e']; cbn [cbind] in *; [discriminate|].
  injection H as <-. destruct HE as [->|HB]; [intros m b Hm; discriminate|congruence|auto].
Qed.
