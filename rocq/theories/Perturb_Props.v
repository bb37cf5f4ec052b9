(** C56: the perturbation analysis of checkpointed loops. *)
From Verif Require Import Perturb_Model.

(** ** Specification: dependence, and the values reachable by it. *)
Inductive dep_in : expr -> nat -> Prop :=
| di_inp : forall i, dep_in (Inp i) i
| di_app : forall op es e i, In e es -> dep_in e i -> dep_in (App op es) i.
Inductive dep_clo : expr -> nat -> Prop :=
| dc_clo : forall c, dep_clo (Clo c) c
| dc_app : forall op es e c, In e es -> dep_clo e c -> dep_clo (App op es) c.

(** Leaf [j] of the loop's value may have a nonzero tangent at some iteration. *)
Inductive perturbed (outs : list leafo) (clo : nat -> bool) (init : list bool) : nat -> Prop :=
| pt_init : forall j, nth j init false = true -> perturbed outs clo init j
| pt_clo : forall j l c, nth_error outs j = Some l -> inx l = true -> dep_clo (ex l) c -> clo c = true ->
    perturbed outs clo init j
| pt_step : forall j l i, nth_error outs j = Some l -> inx l = true -> dep_in (ex l) i ->
    perturbed outs clo init i -> perturbed outs clo init j.

(** Leaf [i] may have a nonzero cotangent at some iteration of the backward pass. *)
Inductive pulled (outs : list leafo) (perturb cts : list bool) : nat -> Prop :=
| pu_init : forall i, nth i cts false = true -> pulled outs perturb cts i
| pu_step : forall j l i, nth_error outs j = Some l -> pulled outs perturb cts j ->
    dep_in (ex l) i -> nth i perturb false = true -> pulled outs perturb cts i.

(** ** The loop over flags *)
Definition sub (a b : list bool) : Prop := forall j, nth j a false = true -> nth j b false = true.
Fixpoint cnt (l : list bool) : nat := match l with [] => 0 | b :: l' => (if b then 1 else 0) + cnt l' end.

Lemma cnt_le l : cnt l <= length l.
Proof. induction l as [|[] l IH]; simpl; lia. Qed.
Lemma or2_nth a : forall b j, length a = length b -> nth j (or2 a b) false = nth j a false || nth j b false.
Proof.
  induction a as [|x a IH]; intros [|y b] j H; simpl in H; try discriminate.
  - destruct j; reflexivity.
  - destruct j; simpl; [reflexivity|]. apply IH. lia.
Qed.
Lemma or2_length a : forall b, length a = length b -> length (or2 a b) = length a.
Proof. induction a as [|x a IH]; intros [|y b] H; simpl in *; try discriminate; auto. Qed.
Lemma or2_cnt a : forall b, length a = length b -> cnt a <= cnt (or2 a b) /\ (cnt (or2 a b) = cnt a -> sub b a).
Proof.
  induction a as [|x a IH]; intros [|y b] H; simpl in H; try discriminate.
  - split; [simpl; lia|]. intros _ j. destruct j; discriminate.
  - destruct (IH b) as [H1 H2]; [lia|]. split; [destruct x, y; simpl; lia|].
    intros E [|j] Hj; simpl in Hj |- *.
    + subst y. destruct x; [reflexivity|]. simpl in E. lia.
    + apply H2; [|exact Hj]. destruct x, y; simpl in E; lia.
Qed.
Lemma or2_sub a : forall b, length a = length b -> sub b a -> or2 a b = a.
Proof.
  induction a as [|x a IH]; intros [|y b] H Hs; simpl in *; try discriminate; [reflexivity|].
  f_equal.
  - specialize (Hs 0); simpl in Hs. destruct x, y; try reflexivity. discriminate (Hs eq_refl).
  - apply IH; [lia|]. intros j Hj. apply (Hs (S j)). exact Hj.
Qed.
Lemma sub_antisym a b : length a = length b -> sub a b -> sub b a -> a = b.
Proof.
  intros Hl H1 H2. apply (nth_ext a b false false Hl). intros n _.
  destruct (nth n a false) eqn:E1, (nth n b false) eqn:E2; auto.
  - apply H1 in E1. congruence.
  - apply H2 in E2. congruence.
Qed.
Lemma beqb_spec a b : beqb a b = true <-> a = b.
Proof. unfold beqb. destruct (list_eq_dec Bool.bool_dec a b); split; congruence. Qed.
Lemma existsb_id_false l : existsb (fun b => b) l = false -> forall j, nth j l false = false.
Proof.
  induction l as [|x l IH]; intros H j; simpl in *; [destruct j; reflexivity|].
  apply Bool.orb_false_elim in H as [-> H]. destruct j; auto.
Qed.

Section Resolve.
  Variable sentinel : list bool -> res (list bool).
  Variable step : list bool -> res (list bool).
  Variable n : nat.
  Variable good : list bool -> Prop.           (* flags the step accepts *)
  Variable P : nat -> Prop.                    (* the set to be computed *)
  Hypothesis good_len : forall a, good a -> length a = n.
  Hypothesis step_ok : forall a, good a -> exists b, step a = Ok b /\ good b.
  Hypothesis good_or : forall a b, good a -> good b -> good (or2 a b).
  (* [P] is closed, and contained in every closed set containing the start *)
  Hypothesis P_closed : forall a b, good a -> (forall j, nth j a false = true -> P j) -> step a = Ok b ->
    forall j, nth j b false = true -> P j.

  Definition closed (a : list bool) : Prop := forall b, step a = Ok b -> sub b a.

  (** Every result is closed and within [P]; with too little fuel nothing else happens. *)
  Lemma resolve_sound fuel : forall a r, good a -> (forall j, nth j a false = true -> P j) ->
    resolve sentinel step fuel a = Some r ->
    exists a', good a' /\ sub a a' /\ (forall j, nth j a' false = true -> P j) /\ closed a' /\
      (r = Ok a' /\ step a' = Ok a' \/ r = sentinel a' /\ exists b, step a' = Ok b /\ forall j, nth j b false = false).
  Proof.
    induction fuel as [|fuel IH]; intros a r Hg HP H; simpl in H; [discriminate|].
    destruct (step_ok a Hg) as (b & Hb & Hgb). rewrite Hb in H.
    destruct (existsb (fun b0 => b0) b) eqn:Ee.
    - destruct (beqb a b) eqn:Eb.
      + apply beqb_spec in Eb. subst b. injection H as <-. exists a.
        split; [exact Hg|]. split; [intros j; auto|]. split; [exact HP|]. split; [|auto].
        intros b' Hb'. rewrite Hb in Hb'. injection Hb' as <-. intros j; auto.
      + assert (Hl : length a = length b) by (rewrite (good_len a), (good_len b); auto).
        destruct (IH (or2 a b) r) as (a' & G1 & G2 & G3).
        * apply good_or; assumption.
        * intros j Hj. rewrite or2_nth in Hj by exact Hl. apply Bool.orb_true_iff in Hj as [Hj|Hj]; [auto|].
          exact (P_closed a b Hg HP Hb j Hj).
        * exact H.
        * exists a'. split; [exact G1|]. split; [|exact G3].
          intros j Hj. apply G2. rewrite or2_nth by exact Hl. rewrite Hj. reflexivity.
    - injection H as <-. pose proof (existsb_id_false b Ee) as Hz. exists a.
      split; [exact Hg|]. split; [intros j; auto|]. split; [exact HP|]. split.
      + intros b' Hb'. rewrite Hb in Hb'. injection Hb' as <-. intros j Hj. rewrite Hz in Hj. discriminate.
      + right. split; [reflexivity|]. eauto.
  Qed.

  (** If a step never loses flags, the loop ends. *)
  Lemma resolve_terminates : (forall a b, good a -> (forall j, nth j a false = true -> P j) -> step a = Ok b -> sub a b) ->
    forall fuel a, good a -> (forall j, nth j a false = true -> P j) -> n - cnt a < fuel ->
      exists r, resolve sentinel step fuel a = Some r.
  Proof.
    intros Hinf. induction fuel as [|fuel IH]; intros a Hg HP Hf; [lia|]. simpl.
    destruct (step_ok a Hg) as (b & Hb & Hgb). rewrite Hb.
    destruct (existsb (fun b0 => b0) b); [|eauto]. destruct (beqb a b) eqn:Eb; [eauto|].
    assert (Hl : length a = length b) by (rewrite (good_len a), (good_len b); auto).
    apply IH.
    - apply good_or; assumption.
    - intros j Hj. rewrite or2_nth in Hj by exact Hl. apply Bool.orb_true_iff in Hj as [Hj|Hj]; [auto|].
      exact (P_closed a b Hg HP Hb j Hj).
    - destruct (or2_cnt a b Hl) as [H1 H2].
      assert (Hne : cnt (or2 a b) <> cnt a).
      { intros E. specialize (H2 E). assert (a = b) by (apply sub_antisym; eauto).
        apply beqb_spec in H. congruence. }
      pose proof (cnt_le (or2 a b)) as H3. rewrite or2_length, (good_len a Hg) in H3 by exact Hl. lia.
  Qed.

  (** Once closed but not a fixed point, the loop runs for ever. *)
  Lemma resolve_stuck fuel : forall a b, good a -> step a = Ok b -> sub b a -> a <> b ->
    existsb (fun b => b) b = true -> resolve sentinel step fuel a = None.
  Proof.
    induction fuel as [|fuel IH]; intros a b Hg Hb Hs Hne Hex; simpl; [reflexivity|].
    rewrite Hb, Hex. destruct (beqb a b) eqn:Eb; [apply beqb_spec in Eb; congruence|].
    destruct (step_ok a Hg) as (b' & Hb' & Hgb). rewrite Hb in Hb'. injection Hb' as <-.
    rewrite or2_sub; [eapply IH; eauto| |exact Hs]. rewrite (good_len a), (good_len b); auto.
  Qed.
End Resolve.

(** ** Facts about expressions *)
Section ExprInd.
  Variable P : expr -> Prop.
  Hypothesis HI : forall i, P (Inp i).
  Hypothesis HC : forall c, P (Clo c).
  Hypothesis HK : P Cst.
  Hypothesis HS : forall e, P (Stop e).
  Hypothesis HA : forall op es, Forall P es -> P (App op es).
  Fixpoint expr_ind' (e : expr) : P e :=
    match e with
    | Inp i => HI i | Clo c => HC c | Cst => HK | Stop e => HS e
    | App op es => HA op es ((fix go es := match es return Forall P es with
                                           | [] => Forall_nil _ | e :: es' => Forall_cons _ (expr_ind' e) (go es') end) es)
    end.
End ExprInd.

Lemma nz_spec cur clo e : nz cur clo e = true <->
  (exists i, dep_in e i /\ nth i cur false = true) \/ (exists c, dep_clo e c /\ clo c = true).
Proof.
  induction e as [i|c| |e|op es IH] using expr_ind'; simpl.
  - split.
    + intros H. left. exists i. split; [constructor|exact H].
    + intros [(k & Hk & H)|(k & Hk & H)]; inversion Hk; subst; exact H.
  - split.
    + intros H. right. exists c. split; [constructor|exact H].
    + intros [(k & Hk & H)|(k & Hk & H)]; inversion Hk; subst; exact H.
  - split; [discriminate|]. intros [(k & Hk & H)|(k & Hk & H)]; inversion Hk.
  - split; [discriminate|]. intros [(k & Hk & H)|(k & Hk & H)]; inversion Hk.
  - rewrite existsb_exists. rewrite Forall_forall in IH. split.
    + intros (e & Hin & He). apply IH in He; [|exact Hin].
      destruct He as [(i & H1 & H2)|(c & H1 & H2)]; [left; exists i|right; exists c]; split; auto; econstructor; eauto.
    + intros [(i & H1 & H2)|(c & H1 & H2)]; inversion H1 as [|? ? e ? Hin Hd]; subst; exists e; (split; [exact Hin|]);
        apply IH; eauto.
Qed.
Lemma uses_spec e i : uses e i = true <-> dep_in e i.
Proof.
  induction e as [k|c| |e|op es IH] using expr_ind'; simpl.
  - rewrite Nat.eqb_eq. split; [intros ->; constructor|]. intros H; inversion H; reflexivity.
  - split; [discriminate|]. intros H; inversion H.
  - split; [discriminate|]. intros H; inversion H.
  - split; [discriminate|]. intros H; inversion H.
  - rewrite existsb_exists. rewrite Forall_forall in IH. split.
    + intros (e & Hin & He). apply IH in He; [|exact Hin]. econstructor; eauto.
    + intros H1; inversion H1 as [|? ? e ? Hin Hd]; subst. exists e. split; [exact Hin|]. apply IH; auto.
Qed.
Lemma rewritten_in j l i : dep_in (rewritten j l) i <-> dep_in (ex l) i \/ (buf l = false /\ i = j).
Proof.
  unfold rewritten. destruct (buf l); split.
  - auto.
  - intros [H|[H _]]; [exact H|discriminate].
  - intros H. inversion H as [|? ? e ? Hin Hd]; subst. destruct Hin as [<-|[<-|[]]]; [auto|]. inversion Hd; auto.
  - intros [H|[_ ->]].
    + eapply di_app; [left; reflexivity|exact H].
    + eapply di_app; [right; left; reflexivity|constructor].
Qed.
Lemma rewritten_clo j l c : dep_clo (rewritten j l) c <-> dep_clo (ex l) c.
Proof.
  unfold rewritten. destruct (buf l); [reflexivity|]. split.
  - intros H. inversion H as [|? ? e ? Hin Hd]; subst. destruct Hin as [<-|[<-|[]]]; [auto|]. inversion Hd.
  - intros H. eapply dc_app; [left; reflexivity|exact H].
Qed.

(** Flags that are false at leaves that are not inexact arrays. *)
Definition flags_ok (outs : list leafo) (a : list bool) : Prop :=
  length a = length outs /\ forall j l, nth_error outs j = Some l -> inx l = false -> nth j a false = false.

Lemma record_spec outs cur clo : forall k flags,
  flags_ok outs flags -> exists b, record_from k outs cur clo flags = Ok b /\ length b = length outs /\
    forall j l, nth_error outs j = Some l ->
      nth j b false = inx l && nz cur clo (rewritten (k + j) l).
Proof.
  induction outs as [|l outs IH]; intros k [|f flags] [Hl Hf]; simpl in Hl; try discriminate.
  - exists []. split; [reflexivity|]. split; [reflexivity|]. intros [|j] l H; discriminate.
  - destruct (IH (S k) flags) as (b & Hb & Hlen & Hn).
    { split; [lia|]. intros j l' H Hi. apply (Hf (S j) l' H Hi). }
    simpl. rewrite Hb.
    assert (Hfl : inx l = false -> f = false) by (intros H; apply (Hf 0 l eq_refl H)).
    exists ((inx l && nz cur clo (rewritten (k + 0) l)) :: b). rewrite Nat.add_0_r. split; [|split].
    + destruct (inx l); simpl; [reflexivity|]. rewrite Hfl by reflexivity. reflexivity.
    + simpl; lia.
    + intros [|j] l' H; simpl in H.
      * injection H as <-. rewrite Nat.add_0_r. reflexivity.
      * simpl. rewrite Nat.add_succ_r. apply (Hn j l' H).
Qed.
(** The assertion: a leaf that is not an inexact array is never flagged. *)
Theorem C56_assertion : forall outs clo flags fuel j l,
  length flags = length outs -> nth_error outs j = Some l -> inx l = false -> nth j flags false = true -> 0 < fuel ->
  resolve_perturb_jvp outs clo fuel flags = Some (Err AssertionError) /\
  resolve_perturb_bwd outs clo fuel flags = Some (Err AssertionError).
Proof.
  intros outs clo flags [|fuel] j l Hl Hj Hi Hf Hp; [lia|].
  assert (H : forall k cur, record_from k outs cur clo flags = Err AssertionError).
  { revert flags j Hl Hj Hf. induction outs as [|l0 outs IH]; intros [|f flags] j Hl Hj Hf k cur; try discriminate.
    - destruct j; discriminate.
    - cbn [record_from]. destruct j as [|j].
      + injection Hj as ->. cbn [nth] in Hf. rewrite Hi, Hf. reflexivity.
      + injection Hl as Hl. cbn [nth_error nth] in *. rewrite (IH flags j Hl Hj Hf (S k) cur).
        destruct (inx l0); [reflexivity|]. destruct f; reflexivity. }
  unfold resolve_perturb_jvp, resolve_perturb_bwd. cbn [resolve]. rewrite H. split; reflexivity.
Qed.
Print Assumptions C56_assertion.
Lemma nth_false_out {A} (l : list A) (b : list bool) j : length b = length l -> nth j b false = true ->
  exists x, nth_error l j = Some x.
Proof.
  intros Hl H. destruct (nth_error l j) as [x|] eqn:E; [eauto|]. apply nth_error_None in E.
  rewrite nth_overflow in H by lia. discriminate.
Qed.

Section Perturb.
  Variable outs : list leafo.
  Variable clo : nat -> bool.
  Variable init : list bool.
  Notation step := (fun cur => record_from 0 outs cur clo cur).
  Notation P := (perturbed outs clo init).

  Lemma p_step_ok a : flags_ok outs a -> exists b, step a = Ok b /\ flags_ok outs b.
  Proof.
    intros H. destruct (record_spec outs a clo 0 a H) as (b & Hb & Hl & Hn). exists b. split; [exact Hb|].
    split; [exact Hl|]. intros j l Hj Hi. rewrite (Hn j l Hj), Hi. reflexivity.
  Qed.
  Lemma p_or a b : flags_ok outs a -> flags_ok outs b -> flags_ok outs (or2 a b).
  Proof.
    intros [H1 H2] [H3 H4]. split; [rewrite or2_length; congruence|].
    intros j l Hj Hi. rewrite or2_nth by congruence. rewrite (H2 j l Hj Hi), (H4 j l Hj Hi). reflexivity.
  Qed.
  Lemma p_closed a b : flags_ok outs a -> (forall j, nth j a false = true -> P j) -> step a = Ok b ->
    forall j, nth j b false = true -> P j.
  Proof.
    intros Hg HP Hb j Hj. destruct (record_spec outs a clo 0 a Hg) as (b' & Hb' & Hl & Hn).
    rewrite Hb in Hb'. injection Hb' as <-. destruct (nth_false_out outs b j Hl Hj) as [l El].
    rewrite (Hn j l El) in Hj. apply Bool.andb_true_iff in Hj as [Hi Hz]. apply nz_spec in Hz as [(i & H1 & H2)|(c & H1 & H2)].
    - apply rewritten_in in H1 as [H1|[_ ->]]; [eapply pt_step; eauto|]. apply HP. exact H2.
    - apply rewritten_clo in H1. eapply pt_clo; eauto.
  Qed.
  (** A closed set containing the start contains everything perturbed. *)
  Lemma p_least a : flags_ok outs a -> sub init a -> closed step a -> forall j, P j -> nth j a false = true.
  Proof.
    intros Hg Hs Hc. destruct (record_spec outs a clo 0 a Hg) as (b & Hb & Hl & Hn). specialize (Hc b Hb).
    intros j H. induction H as [j Hj|j l c El Hi Hd Hcl|j l i El Hi Hd _ IH].
    - auto.
    - apply Hc. rewrite (Hn j l El), Hi. apply nz_spec. right. exists c. split; [apply rewritten_clo; exact Hd|exact Hcl].
    - apply Hc. rewrite (Hn j l El), Hi. apply nz_spec. left. exists i. split; [apply rewritten_in; auto|exact IH].
  Qed.

  (** Every buffer returned is a later version of the buffer passed in. *)
  Definition in_place : Prop := forall j l, nth_error outs j = Some l -> inx l = true -> buf l = true -> dep_in (ex l) j.

  Lemma p_infl : in_place -> forall a b, flags_ok outs a -> step a = Ok b -> sub a b.
  Proof.
    intros Hip a b Hg Hb j Hj. destruct (record_spec outs a clo 0 a Hg) as (b' & Hb' & Hl & Hn).
    rewrite Hb in Hb'. injection Hb' as <-. destruct (nth_false_out outs a j (proj1 Hg) Hj) as [l El].
    rewrite (Hn j l El). destruct (inx l) eqn:Ei.
    - simpl. apply nz_spec. left. exists j. split; [|exact Hj]. apply rewritten_in.
      destruct (buf l) eqn:Ebf; eauto.
    - rewrite (proj2 Hg j l El Ei) in Hj. discriminate.
  Qed.
End Perturb.

(** If every buffer the body returns is an update of the buffer it was given, the analysis ends after at most
    as many rounds as there are leaves plus one, and returns exactly the leaves that
    are reachable from initially perturbed leaves and perturbed closed-over values along the dependence of the body. *)
Theorem C56_perturb : forall outs clo init,
  flags_ok outs init -> in_place outs ->
  exists a, length a = length outs /\ (forall j, nth j a false = true <-> perturbed outs clo init j) /\
    (forall fuel, length outs < fuel -> resolve_perturb_jvp outs clo fuel init = Some (Ok a)) /\
    (forall fuel, length outs < fuel -> (exists j, perturbed outs clo init j) ->
       resolve_perturb_bwd outs clo fuel init = Some (Ok a)).
Proof.
  intros outs clo init Hg Hip.
  set (step := fun cur => record_from 0 outs cur clo cur).
  assert (HPi : forall j, nth j init false = true -> perturbed outs clo init j) by (intros; constructor; assumption).
  assert (Hrun : forall sentinel fuel, length outs < fuel -> exists r a, resolve sentinel step fuel init = Some r /\
     flags_ok outs a /\ (forall j, nth j a false = true <-> perturbed outs clo init j) /\
     (r = Ok a \/ r = sentinel a /\ forall j, nth j a false = false)).
  { intros sentinel fuel Hf.
    destruct (resolve_terminates sentinel step (length outs) (flags_ok outs) (perturbed outs clo init)
               (fun a H => proj1 H) (p_step_ok outs clo) (p_or outs) (p_closed outs clo init)
               (fun a b Hga _ Hst => p_infl outs clo Hip a b Hga Hst) fuel init Hg HPi) as [r Hr]; [lia|].
    destruct (resolve_sound sentinel step (length outs) (flags_ok outs) (perturbed outs clo init)
               (fun a H => proj1 H) (p_step_ok outs clo) (p_or outs) (p_closed outs clo init) fuel init r Hg HPi Hr)
      as (a & G1 & G2 & G3 & G4 & G5).
    exists r, a. split; [exact Hr|]. split; [exact G1|].
    split; [intros j; split; [apply G3|apply (p_least outs clo init a G1 G2 G4)]|].
    destruct G5 as [[-> _]|[-> (b & Hb & Hz)]]; [left; reflexivity|]. right. split; [reflexivity|].
    intros j. destruct (nth j a false) eqn:E; [|reflexivity].
    apply (p_infl outs clo Hip a b G1 Hb) in E. congruence. }
  destruct (Hrun (fun cur => Ok cur) (S (length outs))) as (r & a & _ & Ha & Hiff & _); [lia|].
  assert (Huniq : forall a', flags_ok outs a' -> (forall j, nth j a' false = true <-> perturbed outs clo init j) -> a' = a).
  { intros a' Ha' Hiff'. apply sub_antisym.
    - rewrite (proj1 Ha'), (proj1 Ha). reflexivity.
    - intros j Hj. apply Hiff, Hiff'. exact Hj.
    - intros j Hj. apply Hiff', Hiff. exact Hj. }
  exists a. split; [apply Ha|]. split; [exact Hiff|]. split.
  - intros fuel Hf. destruct (Hrun (fun cur => Ok cur) fuel Hf) as (r' & a' & Hr & Ha' & Hiff' & Hd).
    rewrite (Huniq a' Ha' Hiff') in Hd. unfold resolve_perturb_jvp. fold step. rewrite Hr.
    destruct Hd as [->|[-> _]]; reflexivity.
  - intros fuel Hf [j Hj]. destruct (Hrun (fun _ => Err AssertionError) fuel Hf) as (r' & a' & Hr & Ha' & Hiff' & Hd).
    rewrite (Huniq a' Ha' Hiff') in Hd. unfold resolve_perturb_bwd. fold step. rewrite Hr.
    destruct Hd as [->|[_ Hz]]; [reflexivity|]. apply Hiff in Hj. rewrite Hz in Hj. discriminate.
Qed.
Print Assumptions C56_perturb.

(** Whatever the body, if the analysis ends without exception its result is that set. *)
Theorem C56_perturb_result : forall outs clo init fuel a,
  flags_ok outs init ->
  (resolve_perturb_jvp outs clo fuel init = Some (Ok a) \/ resolve_perturb_bwd outs clo fuel init = Some (Ok a)) ->
  forall j, nth j a false = true <-> perturbed outs clo init j.
Proof.
  intros outs clo init fuel a Hg H j.
  assert (HPi : forall j, nth j init false = true -> perturbed outs clo init j) by (intros; constructor; assumption).
  assert (G : exists a', a' = a /\ flags_ok outs a' /\ sub init a' /\
     (forall j, nth j a' false = true -> perturbed outs clo init j) /\
     closed (fun cur => record_from 0 outs cur clo cur) a').
  { destruct H as [H|H];
    destruct (resolve_sound _ _ (length outs) (flags_ok outs) (perturbed outs clo init)
               (fun a H => proj1 H) (p_step_ok outs clo) (p_or outs) (p_closed outs clo init) fuel init (Ok a) Hg HPi H)
      as (a' & G1 & G2 & G3 & G4 & [[E _]|[E _]]); try discriminate; injection E as ->; exists a'; auto. }
  destruct G as (a' & -> & G1 & G2 & G3 & G4). split; [apply G3|apply (p_least outs clo init a G1 G2 G4)].
Qed.
Print Assumptions C56_perturb_result.

(** It need not end: a body that returns the same buffer in place of two buffers. *)
Definition dup_outs : list leafo :=
  [ {| inx := true; buf := true; ex := Inp 1 |}; {| inx := true; buf := true; ex := Inp 1 |};
    {| inx := true; buf := false; ex := App 1 [Inp 2] |} ].
Theorem C56_perturb_terminates_refuted : exists outs clo init,
  flags_ok outs init /\ forall fuel, resolve_perturb_jvp outs clo fuel init = None /\ resolve_perturb_bwd outs clo fuel init = None.
Proof.
  exists dup_outs, (fun _ => false), [true; false; true].
  assert (Hg : flags_ok dup_outs [true; false; true]).
  { split; [reflexivity|]. intros [|[|[|j]]] l H Hi; simpl in H; try discriminate; try (injection H as <-; discriminate).
    destruct j; discriminate. }
  split; [exact Hg|]. intros fuel.
  assert (Hs : sub [false; false; true] [true; false; true]).
  { intros [|[|[|j]]] Hj; simpl in *; try discriminate; auto. }
  split; refine (resolve_stuck _ _ 3 (flags_ok dup_outs) (fun a H => proj1 H) (p_step_ok dup_outs (fun _ => false)) fuel
                   [true; false; true] [false; false; true] Hg eq_refl Hs _ eq_refl); discriminate.
Qed.
Print Assumptions C56_perturb_terminates_refuted.

(** ** Soundness against actual tangents. *)
Section Tangents.
  Context {V : Type}.
  Variable zero : V.
  Variable lin : nat -> list V -> V.         (* the linearisation of each operation *)
  Fixpoint tan (t : nat -> V) (tc : nat -> V) (e : expr) : V :=
    match e with
    | Inp i => t i
    | Clo c => tc c
    | Cst => zero
    | Stop _ => zero
    | App op es => lin op (map (tan t tc) es)
    end.
  (** The tangents after [k] iterations. *)
  Fixpoint tangents (outs : list leafo) (tc t0 : nat -> V) (k : nat) : nat -> V :=
    match k with
    | 0 => t0
    | S k' => fun j => match nth_error outs j with
                       | Some l => if inx l then tan (tangents outs tc t0 k') tc (rewritten j l) else zero
                       | None => zero
                       end
    end.
  Lemma tan_zero t tc e : (forall op vs, Forall (fun v => v = zero) vs -> lin op vs = zero) ->
    (forall i, dep_in e i -> t i = zero) -> (forall c, dep_clo e c -> tc c = zero) -> tan t tc e = zero.
  Proof.
    intros Hlin. induction e as [i|c| |e|op es IH] using expr_ind'; simpl; intros Hi Hc.
    - apply Hi; constructor.
    - apply Hc; constructor.
    - reflexivity.
    - reflexivity.
    - apply Hlin. apply Forall_forall. intros v Hv. apply in_map_iff in Hv as (e & <- & Hin).
      rewrite Forall_forall in IH. apply IH; [exact Hin| |]; intros k Hk; [apply Hi|apply Hc]; econstructor; eauto.
  Qed.
End Tangents.

(** A leaf outside the computed set has zero tangent after every iteration. *)
Theorem C56_sound : forall {V} (zero : V) lin outs clo init fuel a tc t0,
  (forall op vs, Forall (fun v => v = zero) vs -> lin op vs = zero) ->
  flags_ok outs init ->
  resolve_perturb_jvp outs clo fuel init = Some (Ok a) ->
  (forall c, clo c = false -> tc c = zero) ->
  (forall j, nth j init false = false -> t0 j = zero) ->
  forall k j, nth j a false = false -> tangents zero lin outs tc t0 k j = zero.
Proof.
  intros V zero lin outs clo init fuel a tc t0 Hlin Hg Hr Hc H0.
  pose proof (C56_perturb_result outs clo init fuel a Hg (or_introl Hr)) as Hiff.
  induction k as [|k IH]; intros j Hj; simpl.
  - apply H0. destruct (nth j init false) eqn:E; [|reflexivity].
    assert (X : perturbed outs clo init j) by (constructor; exact E). apply Hiff in X. congruence.
  - destruct (nth_error outs j) as [l|] eqn:El; [|reflexivity]. destruct (inx l) eqn:Ei; [|reflexivity].
    apply tan_zero; [exact Hlin| |].
    + intros i Hi. apply IH. destruct (nth i a false) eqn:E; [|reflexivity]. apply Hiff in E.
      apply rewritten_in in Hi as [Hi|[_ ->]]; [|apply Hiff in E; congruence].
      assert (X : perturbed outs clo init j) by (eapply pt_step; eauto). apply Hiff in X. congruence.
    + intros c Hd. apply Hc. destruct (clo c) eqn:E; [|reflexivity]. apply rewritten_clo in Hd.
      assert (X : perturbed outs clo init j) by (eapply pt_clo; eauto). apply Hiff in X. congruence.
Qed.
Print Assumptions C56_sound.

(** ** Symbolic zeros *)
Lemma pulls_spec outs i : forall cts k, length cts = length outs ->
  (pulls_from k outs cts i = true <->
   exists j l, nth_error outs j = Some l /\ nth j cts false = true /\ dep_in (rewritten (k + j) l) i).
Proof.
  induction outs as [|l outs IH]; intros [|c cts] k Hl; simpl in Hl; try discriminate.
  - simpl. split; [discriminate|]. intros (j & l & H & _). destruct j; discriminate.
  - simpl. rewrite Bool.orb_true_iff, Bool.andb_true_iff, uses_spec, IH by lia. split.
    + intros [[-> H]|(j & l' & H1 & H2 & H3)].
      * exists 0, l. rewrite Nat.add_0_r. auto.
      * exists (S j), l'. rewrite Nat.add_succ_r. auto.
    + intros ([|j] & l' & H1 & H2 & H3); simpl in H1, H2.
      * injection H1 as <-. rewrite Nat.add_0_r in H3. auto.
      * right. exists j, l'. rewrite Nat.add_succ_r in H3. auto.
Qed.
Lemma pull_spec outs perturb cts (i : nat) : length cts = length outs -> length perturb = length outs ->
  exists b, pull_step outs perturb cts = Ok b /\ length b = length outs /\
   (forall i, nth i b false = true <-> nth i perturb false = true /\
     exists j l, nth_error outs j = Some l /\ nth j cts false = true /\ dep_in (rewritten j l) i).
Proof.
  intros H1 H2. eexists. split; [reflexivity|]. split; [rewrite map_length, seq_length; exact H2|].
  clear i. intros i. destruct (Nat.lt_ge_cases i (length perturb)) as [Hi|Hi].
  - rewrite nth_indep with (d' := (fun i => nth i perturb false && pulls_from 0 outs cts i) 0) by
      (rewrite map_length, seq_length; exact Hi).
    rewrite (map_nth (fun i => nth i perturb false && pulls_from 0 outs cts i)), seq_nth by exact Hi.
    simpl. rewrite Bool.andb_true_iff, pulls_spec by exact H1. reflexivity.
  - rewrite nth_overflow by (rewrite map_length, seq_length; exact Hi). rewrite (nth_overflow perturb) by exact Hi.
    split; [discriminate|]. intros [H _]; discriminate.
Qed.

(** The backward analysis likewise: it ends and returns exactly the leaves that a cotangent can reach. *)
Theorem C56_symbolic_zeros : forall outs perturb cts,
  length perturb = length outs -> length cts = length outs ->
  flags_ok outs perturb -> in_place outs ->
  (forall j, nth j cts false = true -> nth j perturb false = true) ->
  (exists j, nth j cts false = true) ->
  exists a, length a = length outs /\ (forall i, nth i a false = true <-> pulled outs perturb cts i) /\
    forall fuel, length outs < fuel -> resolve_symbolic_zeros outs perturb fuel cts = Some (Ok a).
Proof.
  intros outs perturb cts Hp Hc Hfl Hip Hsub [j0 Hj0].
  set (good := fun a : list bool => length a = length outs /\ sub a perturb).
  set (P := pulled outs perturb cts).
  assert (Hgl : forall a, good a -> length a = length outs) by (intros a [H _]; exact H).
  assert (Hst : forall a, good a -> exists b, pull_step outs perturb a = Ok b /\ good b).
  { intros a [Ha _]. destruct (pull_spec outs perturb a 0 Ha Hp) as (b & Hb & Hl & Hn).
    exists b. split; [exact Hb|]. split; [exact Hl|]. intros i Hi. apply Hn in Hi. apply Hi. }
  assert (Hor : forall a b, good a -> good b -> good (or2 a b)).
  { intros a b [H1 H2] [H3 H4]. split; [rewrite or2_length; congruence|].
    intros j Hj. rewrite or2_nth in Hj by congruence. apply Bool.orb_true_iff in Hj as [Hj|Hj]; auto. }
  assert (HPc : forall a b, good a -> (forall j, nth j a false = true -> P j) -> pull_step outs perturb a = Ok b ->
    forall j, nth j b false = true -> P j).
  { intros a b [Ha _] HP Hb i Hi. destruct (pull_spec outs perturb a 0 Ha Hp) as (b' & Hb' & Hl & Hn).
    rewrite Hb in Hb'. injection Hb' as <-. apply Hn in Hi as (Hpi & j & l & El & Hj & Hd).
    apply rewritten_in in Hd as [Hd|[_ ->]]; [|auto]. unfold P. eapply pu_step; eauto. apply HP; exact Hj. }
  assert (Hinf : forall a b, good a -> pull_step outs perturb a = Ok b -> sub a b).
  { intros a b [Ha Hs] Hb j Hj. destruct (pull_spec outs perturb a 0 Ha Hp) as (b' & Hb' & Hl & Hn).
    rewrite Hb in Hb'. injection Hb' as <-. apply Hn. split; [auto|].
    destruct (nth_false_out outs a j Ha Hj) as [l El]. exists j, l. do 2 (split; [auto|]).
    apply rewritten_in. destruct (buf l) eqn:Eb; [left|right; auto].
    destruct (inx l) eqn:Ei; [apply Hip; auto|].
    specialize (Hs j Hj). rewrite (proj2 Hfl j l El Ei) in Hs. discriminate. }
  assert (Hgc : good cts) by (split; [exact Hc|exact Hsub]).
  assert (HPi : forall j, nth j cts false = true -> P j) by (intros; constructor; assumption).
  assert (Hrun : forall fuel, length outs < fuel -> exists a, resolve_symbolic_zeros outs perturb fuel cts = Some (Ok a) /\
     good a /\ (forall j, nth j a false = true <-> P j)).
  { intros fuel Hf.
    destruct (resolve_terminates (fun _ => Err AssertionError) (pull_step outs perturb) (length outs) good P
               Hgl Hst Hor HPc (fun a b Hga _ H => Hinf a b Hga H) fuel cts Hgc HPi) as [r Hr]; [lia|].
    destruct (resolve_sound _ _ (length outs) good P Hgl Hst Hor HPc fuel cts r Hgc HPi Hr)
      as (a & G1 & G2 & G3 & G4 & G5).
    exists a. destruct G5 as [[-> _]|[-> (b & Hb & Hz)]].
    - split; [exact Hr|]. split; [exact G1|]. intros j. split; [apply G3|].
      intros H. induction H as [i Hi|j l i El _ IH Hd Hpi]; [auto|].
      destruct (pull_spec outs perturb a 0 (proj1 G1) Hp) as (b & Hb & Hl & Hn). apply (G4 b Hb).
      apply Hn. split; [exact Hpi|]. exists j, l. do 2 (split; [auto|]). apply rewritten_in. auto.
    - exfalso. apply G2 in Hj0. apply (Hinf a b G1 Hb) in Hj0. congruence. }
  destruct (Hrun (S (length outs))) as (a & _ & Ha & Hiff); [lia|].
  exists a. split; [apply Ha|]. split; [exact Hiff|]. intros fuel Hf.
  destruct (Hrun fuel Hf) as (a' & Hr & Ha' & Hiff'). rewrite Hr. do 2 f_equal. apply sub_antisym.
  - rewrite (proj1 Ha'), (proj1 Ha). reflexivity.
  - intros j Hj. apply Hiff, Hiff'. exact Hj.
  - intros j Hj. apply Hiff', Hiff. exact Hj.
Qed.
Print Assumptions C56_symbolic_zeros.

(** Cotangents flow only to perturbed leaves. *)
Theorem C56_pulled_perturbed : forall outs perturb cts,
  (forall j, nth j cts false = true -> nth j perturb false = true) ->
  forall i, pulled outs perturb cts i -> nth i perturb false = true.
Proof. intros outs perturb cts H i Hi. destruct Hi; auto. Qed.
Print Assumptions C56_pulled_perturbed.

(** ** Examples. Leaves: x0 (perturbed), x1 := x0 + x1, x2 := stop(x1), x3 := closed-over 7, an integer, and
    a buffer written with x1. *)
Definition ex_outs : list leafo :=
  [ {| inx := true; buf := false; ex := Inp 0 |};
    {| inx := true; buf := false; ex := App 1 [Inp 0; Inp 1] |};
    {| inx := true; buf := false; ex := Stop (Inp 1) |};
    {| inx := true; buf := false; ex := Clo 7 |};
    {| inx := false; buf := false; ex := Stop (Inp 0) |};
    {| inx := true; buf := true; ex := App 2 [Inp 5; Inp 1] |} ].
Example C56_ex_perturb :
  resolve_perturb_jvp ex_outs (fun c => Nat.eqb c 7) 10 [true; false; false; false; false; false]
  = Some (Ok [true; true; false; true; false; true]).
Proof. reflexivity. Qed.
Example C56_ex_in_place : in_place ex_outs.
Proof.
  intros [|[|[|[|[|[|j]]]]]] l H Hi Hb; simpl in H; try (injection H as <-); try discriminate.
  - econstructor; [left; reflexivity|constructor].
  - destruct j; discriminate.
Qed.
Example C56_ex_zeros :
  resolve_symbolic_zeros ex_outs [true; true; false; true; false; true] 10 [false; true; false; false; false; false]
  = Some (Ok [true; true; false; false; false; false]).
Proof. reflexivity. Qed.
