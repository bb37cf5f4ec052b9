(** Proofs about [Enumeration]. *)
From Verif Require Export Enum_Model.
From Verif Require Import Class_Proofs.

(** ** Order in C3 *)
Definition before (l : list nat) (x y : nat) : Prop := exists l1 l2, l = l1 ++ x :: l2 /\ In y l2.
Lemma before_cons z l x y : before l x y -> before (z :: l) x y.
Proof. intros (l1 & l2 & -> & H). exists (z :: l1), l2. auto. Qed.
Lemma before_In l x y : before l x y -> In x l /\ In y l.
Proof. intros (l1 & l2 & -> & H). rewrite !in_app_iff. cbn. auto. Qed.

Lemma head_ok_tl x seqs s : head_ok x seqs = true -> In s seqs -> ~ In x (tl s).
Proof.
  unfold head_ok. rewrite forallb_forall. intros H Hs. specialize (H s Hs). rewrite negb_true_iff in H.
  intros HI. apply mem_In in HI. congruence.
Qed.
Lemma find_head_ok cands seqs x : find_head cands seqs = Some x -> head_ok x seqs = true.
Proof.
  induction cands as [|[|y s] cs IH]; cbn; intros H; try discriminate; auto.
  destruct (head_ok y seqs) eqn:E; auto. inv H. auto.
Qed.
Lemma c3_merge_before fuel : forall seqs l, c3_merge fuel seqs = Ok l -> forall s x y, In s seqs -> before s x y -> before l x y.
Proof.
  induction fuel as [|f IH]; intros seqs l H s x y Hs HB; cbn [c3_merge] in H; destruct (all_nil seqs) eqn:En.
  - unfold all_nil in En. rewrite forallb_forall in En. specialize (En s Hs). destruct s; [|discriminate]. apply before_In in HB as [[] _].
  - discriminate.
  - unfold all_nil in En. rewrite forallb_forall in En. specialize (En s Hs). destruct s; [|discriminate]. apply before_In in HB as [[] _].
  - destruct (find_head seqs seqs) as [h|] eqn:E; [|discriminate].
    destruct (c3_merge f (map (drop_head h) seqs)) as [l'|] eqn:E'; [|discriminate]. cbn in H. inv H.
    pose proof (head_ok_tl h seqs s (find_head_ok _ _ _ E) Hs) as HT. destruct HB as (s1 & s2 & -> & Hy).
    destruct s1 as [|z s1]; cbn in HT.
    + destruct (Nat.eq_dec h x) as [->|Hne].
      * exists [], l'. split; auto. eapply c3_merge_complete; [exact E'|apply in_map; exact Hs|]. cbn. rewrite Nat.eqb_refl. auto.
      * apply before_cons. eapply IH; [exact E'|apply in_map; exact Hs|]. cbn.
        destruct (Nat.eqb_spec h x); [congruence|]. exists [], s2. auto.
    + apply before_cons. eapply IH; [exact E'|apply in_map; exact Hs|]. cbn.
      destruct (Nat.eqb h z); [exists s1, s2; auto|exists (z :: s1), s2; auto].
Qed.
Lemma c3_nodup fuel : forall seqs l, c3_merge fuel seqs = Ok l -> NoDup l.
Proof.
  induction fuel as [|f IH]; intros seqs l H; cbn [c3_merge] in H; destruct (all_nil seqs) eqn:En; try discriminate; try (inv H; constructor).
  destruct (find_head seqs seqs) as [h|] eqn:E; [|discriminate].
  destruct (c3_merge f (map (drop_head h) seqs)) as [l'|] eqn:E'; [|discriminate]. cbn in H. inv H.
  constructor; [|eauto]. intros Hin. destruct (c3_merge_In _ _ _ _ E' Hin) as (s & Hs & Hh).
  apply in_map_iff in Hs as (s0 & <- & Hs0). pose proof (head_ok_tl h seqs s0 (find_head_ok _ _ _ E) Hs0) as HT.
  destruct s0 as [|z s0]; cbn in *; auto. destruct (Nat.eqb_spec h z); cbn in *; auto. destruct Hh; auto.
Qed.
(** ** C3 does not run out of fuel *)
Lemma find_head_In cands seqs x : find_head cands seqs = Some x -> exists s, In (x :: s) cands.
Proof.
  induction cands as [|[|y s] cs IH]; cbn; intros H; try discriminate.
  - destruct (IH H) as [t Ht]. eauto.
  - destruct (head_ok y seqs); [injection H as <-; eauto|]. destruct (IH H) as [t Ht]. eauto.
Qed.
Lemma total_drop x seqs : total (map (drop_head x) seqs) <= total seqs.
Proof.
  unfold total. induction seqs as [|[|y s] seqs IH]; cbn; [lia|exact IH|]. destruct (Nat.eqb x y); cbn; lia.
Qed.
Lemma total_drop_lt x s seqs : In (x :: s) seqs -> total (map (drop_head x) seqs) < total seqs.
Proof.
  induction seqs as [|t seqs IH]; [intros []|]. intros [->|H].
  - cbn. rewrite Nat.eqb_refl. pose proof (total_drop x seqs) as H. unfold total in H. lia.
  - specialize (IH H). destruct t as [|y t]; cbn; unfold total in *; [exact IH|]. destruct (Nat.eqb x y); cbn; lia.
Qed.
Lemma c3_merge_err fuel : forall seqs e, total seqs <= fuel -> c3_merge fuel seqs = Err e -> e = TypeError.
Proof.
  induction fuel as [|f IH]; intros seqs e HT H; cbn [c3_merge] in H; destruct (all_nil seqs) eqn:En; try discriminate.
  - exfalso. revert En. clear -HT. unfold total, all_nil in *. induction seqs as [|[|y s] seqs IHs]; cbn in *; [discriminate|exact (IHs HT)|lia].
  - destruct (find_head seqs seqs) as [x|] eqn:E; [|congruence].
    destruct (find_head_In _ _ _ E) as [s Hs]. pose proof (total_drop_lt x s seqs Hs) as HL.
    destruct (c3_merge f (map (drop_head x) seqs)) as [l|e'] eqn:E'; cbn in H; [discriminate|]. injection H as <-.
    refine (IH (map (drop_head x) seqs) e' _ E'). lia.
Qed.
Lemma removelast_app1 {X} (l : list X) a : removelast (l ++ [a]) = l.
Proof. rewrite removelast_app by discriminate. cbn. apply app_nil_r. Qed.
Lemma nodup_split (p : list nat) y b m1 m2 : NoDup (p ++ y :: b) -> p ++ y :: b = m1 ++ y :: m2 -> b = m2.
Proof.
  revert m1. induction p as [|q p IH]; intros m1 HN E; destruct m1 as [|r m1]; cbn in *.
  - congruence.
  - injection E as <- E. inversion HN as [|? ? H _]; subst. exfalso. apply H. rewrite in_app_iff. cbn; auto.
  - injection E as -> E. inversion HN as [|? ? H _]; subst. exfalso. apply H. rewrite in_app_iff. cbn; auto.
  - injection E as _ E. inversion HN; subst. eapply IH; eauto.
Qed.
Lemma removelast2_In l x y z : NoDup l -> before l x y -> before l y z -> In x (removelast (removelast l)).
Proof.
  intros HN (l1 & l2 & -> & Hy) (m1 & m2 & E & Hz). apply in_split in Hy as (a & b & ->).
  assert (Hb : b = m2).
  { replace (l1 ++ x :: a ++ y :: b) with ((l1 ++ x :: a) ++ y :: b) in * by (rewrite <- app_assoc; auto).
    eapply nodup_split; eauto. }
  subst m2. destruct (exists_last (l := b)) as (b' & v & ->); [intros ->; destruct Hz|].
  replace (l1 ++ x :: a ++ y :: b' ++ [v]) with ((l1 ++ x :: a ++ y :: b') ++ [v]) by (rewrite <- app_assoc; cbn; rewrite <- app_assoc; auto).
  rewrite removelast_app1. destruct (exists_last (l := y :: b')) as (b'' & w & ->); [discriminate|].
  replace (l1 ++ x :: a ++ b'' ++ [w]) with ((l1 ++ x :: a ++ b'') ++ [w]) by (rewrite <- app_assoc; cbn; rewrite <- app_assoc; auto).
  rewrite removelast_app1, in_app_iff. cbn; auto.
Qed.

(** ** Storing items *)
Definition ok_st (st : list (name * nat) * list message) : Prop :=
  NoDup (map fst (fst st)) /\ map snd (fst st) = seq 0 (length (fst st)) /\ length (snd st) = length (fst st).
Definition ext (a b : list (name * nat)) : Prop := forall n i, In (n, i) a -> In (n, i) b.

Lemma aget_In {V} (d : list (name * V)) n v : aget d n = Some v -> In (n, v) d.
Proof.
  induction d as [|[m w] d IH]; cbn; [discriminate|]. destruct (Nat.eqb_spec m n); [intros H; inv H; auto|auto].
Qed.
Lemma In_aget {V} (d : list (name * V)) n v : NoDup (map fst d) -> In (n, v) d -> aget d n = Some v.
Proof.
  induction d as [|[m w] d IH]; cbn; intros HN H; [destruct H|]. inversion HN as [|? ? Hn HN']; subst.
  destruct H as [E|H]; [injection E as <- <-; rewrite Nat.eqb_refl; auto|].
  destruct (Nat.eqb_spec m n); [|auto]. subst. exfalso. apply Hn. apply in_map_iff. exists (n, v). auto.
Qed.
Lemma aget_app {V} (d d' : list (name * V)) n : aget (d ++ d') n = match aget d n with Some v => Some v | None => aget d' n end.
Proof. induction d as [|[m w] d IH]; cbn; auto. destruct (Nat.eqb m n); auto. Qed.
Lemma set_nth_len {X} i (x : X) l : length (set_nth i x l) = length l.
Proof. revert i. induction l; intros [|i]; cbn; auto. Qed.
Lemma set_nth_same {X} i (x : X) l : i < length l -> nth_error (set_nth i x l) i = Some x.
Proof. revert i. induction l; intros [|i] H; cbn in *; auto; try lia. apply IHl. lia. Qed.
Lemma set_nth_other {X} i j (x : X) l : i <> j -> nth_error (set_nth i x l) j = nth_error l j.
Proof. revert i j. induction l; intros [|i] [|j] H; cbn; auto; try lia. Qed.

Lemma seq_snd_lt (items : list (name * nat)) n i : map snd items = seq 0 (length items) -> In (n, i) items -> i < length items.
Proof.
  intros H Hin. assert (In i (map snd items)) as H0 by (apply in_map_iff; exists (n, i); auto).
  rewrite H in H0. apply in_seq in H0. lia.
Qed.
Lemma snd_inj (items : list (name * nat)) n n' i : map snd items = seq 0 (length items) -> In (n, i) items -> In (n', i) items -> n = n'.
Proof.
  intros H H1 H2. assert (HN : NoDup (map snd items)) by (rewrite H; apply seq_NoDup). clear H. revert HN H1 H2.
  induction items as [|[m j] items IH]; cbn; intros HN H1 H2; [destruct H1|]. inversion HN as [|? ? Hn HN']; subst.
  destruct H1 as [E1|H1], H2 as [E2|H2].
  - congruence.
  - inv E1. exfalso. apply Hn. apply in_map_iff. exists (n', i). auto.
  - inv E2. exfalso. apply Hn. apply in_map_iff. exists (n, i). auto.
  - auto.
Qed.

Lemma store_ok st n m st' j : ok_st st -> store st (n, m) = (st', j) -> ok_st st' /\ ext (fst st) (fst st') /\ In (n, j) (fst st').
Proof.
  destruct st as [items msgs]. intros (H1 & H2 & H3) H. cbn in *. destruct (aget items n) as [i|] eqn:E; inv H; cbn.
  - split; [|split; [intros ? ? ?; auto|apply aget_In; auto]]. split; auto. split; auto. cbn. rewrite set_nth_len. auto.
  - split; [|split].
    + apply aget_None in E. split; cbn; [|split].
      * rewrite map_app. cbn. apply NoDup_rev in H1. rewrite <- (rev_involutive (map fst items ++ [n])). apply NoDup_rev.
        rewrite rev_app_distr. cbn. constructor; auto. rewrite <- in_rev. auto.
      * rewrite map_app, app_length, seq_app, H2, H3. cbn. auto.
      * rewrite !app_length, H3. auto.
    + intros ? ? ?. rewrite in_app_iff. auto.
    + rewrite in_app_iff. cbn. auto.
Qed.
Lemma ext_refl a : ext a a. Proof. intros ? ?; auto. Qed.
Lemma ext_trans a b c : ext a b -> ext b c -> ext a c.
Proof. intros H H' n i Hin. apply H', H, Hin. Qed.

Lemma store_base_spec bm todo : forall st offs st' offs', ok_st st -> store_base bm todo st offs = (st', offs') ->
  NoDup (map snd todo) -> (forall n i, In (n, i) todo -> i < length offs) ->
  ok_st st' /\ ext (fst st) (fst st') /\ length offs' = length offs /\
  (forall n i, In (n, i) todo -> exists j, nth_error offs' i = Some j /\ In (n, j) (fst st')) /\
  (forall i, ~ In i (map snd todo) -> nth_error offs' i = nth_error offs i).
Proof.
  induction todo as [|[n i] todo IH]; intros st offs st' offs' HO H HN HL; cbn [store_base] in H.
  - inv H. split; auto. split; [apply ext_refl|]. split; auto. split; auto. intros ? ? [].
  - destruct (store st (n, nth i bm 0)) as [st1 j] eqn:E. destruct (store_ok _ _ _ _ _ HO E) as (HO1 & HE1 & HI1).
    cbn in HN. inversion HN as [|? ? Hn HN']; subst.
    destruct (IH st1 _ st' offs' HO1 H HN') as (A & B & C & D & F).
    { intros n' i' Hin. rewrite set_nth_len. apply (HL n'). right; auto. }
    split; auto. split; [eapply ext_trans; eauto|]. split; [rewrite set_nth_len in C; auto|]. split.
    + intros n' i' [E'|Hin]; [|auto]. injection E' as <- <-. exists j. rewrite F by auto. split; [|apply B; auto].
      apply set_nth_same. apply (HL n). left; auto.
    + intros k Hk. cbn in Hk. rewrite F by tauto. apply set_nth_other. intros ->. tauto.
Qed.

Definition good (reg : ereg) (items : list (name * nat)) (b : nat) (o : list nat) : Prop :=
  exists e, nth_error reg b = Some e /\ length o = length (e_items e) /\
    forall n i, In (n, i) (e_items e) -> exists j, nth_error o i = Some j /\ In (n, j) items.
Definition ok_reg (reg : ereg) : Prop := forall c e, nth_error reg c = Some e -> ok_st (e_items e, e_msgs e).
Lemma good_ext reg a b x o : ext a b -> good reg a x o -> good reg b x o.
Proof. intros HE (e & H1 & H2 & H3). exists e. split; auto. split; auto. intros n i Hin. destruct (H3 n i Hin) as (j & Hj & Hn). eauto. Qed.

Lemma store_bases_spec reg bs : ok_reg reg -> forall st offs st' offs', ok_st st -> store_bases reg bs st offs = Ok (st', offs') ->
  (forall b o, aget offs b = Some o -> good reg (fst st) b o) ->
  ok_st st' /\ ext (fst st) (fst st') /\ (forall b o, aget offs' b = Some o -> good reg (fst st') b o) /\
  (forall b, In b bs \/ aget offs b <> None -> aget offs' b <> None) /\
  (forall b, In b bs -> is_enum reg b = true).
Proof.
  intros HR. induction bs as [|b bs IH]; intros st offs st' offs' HO H HG; cbn [store_bases] in H.
  - inv H. split; auto. split; [apply ext_refl|]. split; auto. split; [intros b [[]|H]; auto|intros b []].
  - destruct (nth_error reg b) as [e|] eqn:Eb; [|discriminate]. destruct (e_is e) eqn:Ei; cbn in H; [|discriminate].
    assert (HI : is_enum reg b = true) by (unfold is_enum; rewrite Eb; auto).
    destruct (aget offs b) as [o|] eqn:Eo.
    + destruct (IH _ _ _ _ HO H HG) as (A & B & C & D & F). split; auto. split; auto. split; auto. split.
      * intros x [[<-|Hx]|Hx]; apply D; auto. right. congruence.
      * intros x [<-|Hx]; auto.
    + destruct (store_base (e_msgs e) (e_items e) st (repeat 0 (length (e_items e)))) as [st1 o1] eqn:E1.
      destruct (HR b e Eb) as (K1 & K2 & K3). cbn in K1, K2, K3.
      destruct (store_base_spec _ _ _ _ _ _ HO E1) as (A1 & B1 & C1 & D1 & _).
      { rewrite K2. apply seq_NoDup. }
      { intros n i Hin. rewrite repeat_length. eapply seq_snd_lt; eauto. }
      rewrite repeat_length in C1.
      destruct (IH _ _ _ _ A1 H) as (A & B & C & D & F).
      { intros x o Hx. rewrite aget_app in Hx. destruct (aget offs x) as [o'|] eqn:Ex.
        - inv Hx. eapply good_ext; eauto.
        - cbn in Hx. destruct (Nat.eqb_spec b x); [|discriminate]. inv Hx. exists e. split; auto. }
      split; auto. split; [eapply ext_trans; eauto|]. split; auto. split.
      * intros x Hx. apply D. destruct Hx as [[<-|Hx]|Hx]; auto; right; rewrite aget_app.
        -- rewrite Eo. cbn. rewrite Nat.eqb_refl. discriminate.
        -- destruct (aget offs x); congruence.
      * intros x [<-|Hx]; auto.
Qed.
Lemma store_own_spec ns : forall st, ok_st st -> ok_st (store_own ns st) /\ ext (fst st) (fst (store_own ns st)) /\
  (forall n, In n (map fst ns) -> In n (map fst (fst (store_own ns st)))).
Proof.
  induction ns as [|[n m] ns IH]; intros st HO; cbn [store_own].
  - split; auto. split; [apply ext_refl|intros n []].
  - destruct (store st (n, m)) as [st1 j] eqn:E. destruct (store_ok _ _ _ _ _ HO E) as (A & B & C). cbn [fst].
    destruct (IH st1 A) as (A' & B' & C'). split; auto. split; [eapply ext_trans; eauto|].
    intros x [<-|Hx]; [|auto]. apply in_map_iff. exists (n, j). split; auto.
Qed.

(** ** Registries *)
Definition wfe (reg : ereg) (i : nat) (e : enum) : Prop :=
  (exists l, e_mro e = i :: l) /\ (forall x, In x (e_mro e) -> x <= i) /\ NoDup (e_mro e) /\
  (e_is e = true -> In 1 (e_mro e)) /\
  (forall x, In x (e_mro e) -> is_enum reg x = true -> x <> 1 -> before (e_mro e) x 1) /\
  (In 1 (e_mro e) -> before (e_mro e) 1 0).
(** The offsets that a class keeps. *)
Definition offs_ok (reg : ereg) (c : nat) (e : enum) : Prop :=
  (forall b, In b (e_mro e) -> b <> c -> b <> 1 -> is_enum reg b = true -> e_is e = true ->
    exists o, aget (e_offs e) b = Some o /\ good reg (e_items e) b o).

Lemma is_enum_app reg e x : x < length reg -> is_enum (reg ++ [e]) x = is_enum reg x.
Proof. intros H. unfold is_enum. rewrite nth_error_app1; auto. Qed.
Lemma wfe_app reg e' i e : wfe reg i e -> i < length reg -> wfe (reg ++ [e']) i e.
Proof.
  intros (A & B & C & D & E & F) Hi. do 4 (split; [auto|]). split; auto.
  intros x Hx. rewrite is_enum_app; auto. specialize (B x Hx). lia.
Qed.
Lemma offs_app reg e' i e : wfe reg i e -> i < length reg -> offs_ok reg i e -> offs_ok (reg ++ [e']) i e.
Proof.
  intros (_ & B & _) Hi H b Hb H1 H2 H3 H4. specialize (B b Hb). rewrite is_enum_app in H3 by lia.
  destruct (H b Hb H1 H2 H3 H4) as (o & Ho & ex & He & Hr). exists o. split; auto. exists ex. split; auto. rewrite nth_error_app1; [auto|lia].
Qed.

Lemma nth_snoc (reg : ereg) e i e' : nth_error (reg ++ [e]) i = Some e' -> (i < length reg /\ nth_error reg i = Some e') \/ (i = length reg /\ e' = e).
Proof.
  intros H. destruct (Nat.lt_ge_cases i (length reg)) as [Hl|Hl].
  - left. rewrite nth_error_app1 in H; auto.
  - right. rewrite nth_error_app2 in H by auto. destruct (i - length reg) as [|[|k]] eqn:E; cbn in H; inv H. split; auto. lia.
Qed.

Section Step.
  Variables (reg : ereg) (bases : list nat) (mro : list nat) (e : enum).
  Hypothesis HW : forall i e, nth_error reg i = Some e -> wfe reg i e.
  Hypothesis HB : forall b, In b bases -> b < length reg.
  Hypothesis HC : c3e reg (length reg) bases = Ok mro.
  Hypothesis HM : e_mro e = mro.
  Hypothesis HL2 : 2 <= length reg.
  Hypothesis HE : e_is e = true <-> existsb (is_enum reg) bases = true.

  Lemma mro_self b : In b bases -> In b (mro_e reg b).
  Proof.
    intros Hb. destruct (nth_error_ge_ex reg b (HB b Hb)) as [eb Eb]. unfold mro_e. rewrite Eb.
    destruct (HW b eb Eb) as ((l & ->) & _). left; auto.
  Qed.
  Lemma step_shape : exists l, mro = length reg :: l /\ NoDup l /\
    (forall x, In x l -> exists b, In b bases /\ In x (mro_e reg b)) /\
    (forall b x y, In b bases -> before (mro_e reg b) x y -> before l x y) /\
    (forall b x, In b bases -> In x (mro_e reg b) -> In x l).
  Proof.
    unfold c3e in HC. destruct (c3_merge _ _) as [l|] eqn:E; [|discriminate]. cbn in HC. inv HC. exists l. split; auto.
    split; [eapply c3_nodup; eauto|]. split; [|split].
    - intros x Hx. destruct (c3_merge_In _ _ _ _ E Hx) as (s & Hs & Hxs). apply in_app_iff in Hs as [Hs|[<-|[]]].
      + apply in_map_iff in Hs as (b & <- & Hb). eauto.
      + exists x. split; auto. apply mro_self; auto.
    - intros b x y Hb HBf. eapply c3_merge_before; [exact E| |exact HBf]. apply in_app_iff. left. apply in_map; auto.
    - intros b x Hb Hx. eapply c3_merge_complete; [exact E| |exact Hx]. apply in_app_iff. left. apply in_map; auto.
  Qed.
  Lemma mro_e_wf b : In b bases -> exists eb, nth_error reg b = Some eb /\ mro_e reg b = e_mro eb /\ wfe reg b eb.
  Proof. intros Hb. destruct (nth_error_ge_ex reg b (HB b Hb)) as [eb Eb]. exists eb. unfold mro_e. rewrite Eb. auto. Qed.

  Lemma step_wfe : wfe (reg ++ [e]) (length reg) e.
  Proof.
    destruct step_shape as (l & El & HN & HI & HBf & HA). unfold wfe. rewrite HM, El.
    assert (HL : forall x, In x l -> x < length reg).
    { intros x Hx. destruct (HI x Hx) as (b & Hb & Hxb). destruct (mro_e_wf b Hb) as (eb & Eb & Em & _ & HBb & _).
      rewrite Em in Hxb. specialize (HBb x Hxb). specialize (HB b Hb). lia. }
    split; [eexists; reflexivity|]. split; [intros x [<-|Hx]; [auto|apply HL in Hx; lia]|].
    split; [constructor; auto; intros Hx; apply HL in Hx; lia|].
    assert (H1 : e_is e = true -> In 1 l).
    { intros He. apply HE in He. apply existsb_exists in He as (b & Hb & Hbe). destruct (mro_e_wf b Hb) as (eb & Eb & Em & _ & _ & _ & H1 & _).
      unfold is_enum in Hbe. rewrite Eb in Hbe. apply (HA b); auto. rewrite Em. auto. }
    split; [intros He; right; auto|]. split.
    - intros x [<-|Hx] Hxe Hne.
      + unfold is_enum in Hxe. rewrite nth_error_app2, Nat.sub_diag in Hxe by auto. cbn in Hxe. exists [], l. split; auto.
      + apply before_cons. rewrite is_enum_app in Hxe by auto. destruct (HI x Hx) as (b & Hb & Hxb).
        destruct (mro_e_wf b Hb) as (eb & Eb & Em & _ & _ & _ & _ & H5 & _). apply (HBf b); auto. rewrite Em in *. auto.
    - intros [E1|H01].
      + exfalso. lia.
      + apply before_cons. destruct (HI 1 H01) as (b & Hb & Hxb). destruct (mro_e_wf b Hb) as (eb & Eb & Em & _ & _ & _ & _ & _ & H6).
        apply (HBf b); auto. rewrite Em in *. auto.
  Qed.
End Step.
