(** Property C30, continued: the kind of a scan, and scans over several arrays. *)
From Verif Require Import Scan_Model Loop_Spec Loop_Proofs2 Loop_Props.
Local Open Scope nat_scope.

(** The first axes of all arrays, and the argument [length] if given, have this size. *)
Definition has_length {X} (xs : list (@scanned X)) (length_arg : option nat) (l : nat) : Prop :=
  (forall x, In x xs -> exists r, x = Rows r /\ length r = l) /\
  (forall m, length_arg = Some m -> m = l) /\
  (xs = [] -> length_arg <> None).

Lemma dims {X} (xs : list (@scanned X)) ls : mapM first_dim xs = Ok ls <-> Forall2 (fun x d => exists r, x = Rows r /\ length r = d) xs ls.
Proof.
  revert ls. induction xs as [|x xs IH]; intros ls; cbn [mapM].
  - split; [intros H; injection H as <-; constructor|]. intros H. inversion H. reflexivity.
  - destruct x as [v|r]; cbn [first_dim bind].
    + split; [discriminate|]. intros H. inversion H as [|? ? ? ? (r & Hr & _)]. discriminate.
    + destruct (mapM first_dim xs) as [ds|e] eqn:E; cbn [bind].
      * split.
        -- intros H. injection H as <-. constructor; [eauto|]. apply IH. reflexivity.
        -- intros H. inversion H as [|? d ? ds' (r' & Hr & Hd) H2]; subst. injection Hr as <-. apply IH in H2. congruence.
      * split; [discriminate|]. intros H. inversion H as [|? d ? ds' _ H2]; subst. apply IH in H2. discriminate.
Qed.

Lemma nodup_one l ds : nodup Nat.eq_dec ds = [l] <-> ds <> [] /\ forall d, In d ds -> d = l.
Proof.
  split.
  - intros H. split.
    + intros ->. discriminate.
    + intros d Hd. apply (nodup_In Nat.eq_dec) in Hd. rewrite H in Hd. destruct Hd as [<-|[]]. reflexivity.
  - induction ds as [|d ds IH]; [intros [H _]; contradiction|]. intros [_ H]. cbn [nodup]. pose proof (H d (or_introl eq_refl)) as Hd. subst l.
    destruct (in_dec Nat.eq_dec d ds) as [i|n].
    + apply IH. split; [intros ->; contradiction|]. intros e He. apply H. right. exact He.
    + destruct ds as [|e ds]; [reflexivity|]. exfalso. apply n. rewrite <- (H e (or_intror (or_introl eq_refl))). left. reflexivity.
Qed.

Lemma lengths_spec {X} (xs : list (@scanned X)) length_arg l : scan_lengths xs length_arg = Ok l <-> has_length xs length_arg l.
Proof.
  unfold scan_lengths, has_length. destruct (mapM first_dim xs) as [ds|e] eqn:E; cbn [bind].
  - apply dims in E. set (ls := match length_arg with None => ds | Some m => m :: ds end).
    assert (A : (match nodup Nat.eq_dec ls with [l0] => Ok l0 | _ => Err ValueError end = Ok l) <-> nodup Nat.eq_dec ls = [l]).
    { destruct (nodup Nat.eq_dec ls) as [|a [|b r]]; split; intros H; try discriminate; congruence. }
    etransitivity; [exact A|]. rewrite nodup_one.
    assert (B : (forall x, In x xs -> exists r, x = Rows r /\ length r = l) <-> (forall d, In d ds -> d = l)).
    { clear A ls. induction E as [|x d xs' ds' (r & -> & <-) _ IH]; [split; intros _ ? []|]. split.
      - intros H d [<-|Hd]; [destruct (H _ (or_introl eq_refl)) as (r' & Hr & Hl); congruence|]. apply IH; [|exact Hd]. intros x Hx. apply H. right. exact Hx.
      - intros H x [<-|Hx]; [exists r; split; [reflexivity|apply H; left; reflexivity]|]. apply IH; [|exact Hx]. intros d Hd. apply H. right. exact Hd. }
    assert (C : xs = [] <-> ds = []) by (inversion E; split; congruence).
    rewrite B. subst ls. destruct length_arg as [m|].
    + split.
      * intros [_ H]. split; [intros d Hd; apply H; right; exact Hd|]. split; [intros m' Hm; injection Hm as <-; apply H; left; reflexivity|discriminate].
      * intros (H1 & H2 & _). split; [discriminate|]. intros d [<-|Hd]; auto.
    + split.
      * intros [H1 H2]. split; [exact H2|]. split; [discriminate|]. intros Hx _. apply H1, C, Hx.
      * intros (H1 & _ & H3). split; [|exact H1]. intros Hd. apply C in Hd. exact (H3 Hd eq_refl).
  - split; [discriminate|]. intros (H & _). exfalso. clear - E H. induction xs as [|x xs IH]; [discriminate|].
    destruct (H x (or_introl eq_refl)) as (r & -> & _). cbn [mapM first_dim bind] in E.
    destruct (mapM first_dim xs); [discriminate|]. cbn in E. apply IH; [exact E|]. intros y Hy. apply H. right. exact Hy.
Qed.

Section Scans.
  Context {Cr X Y : Type}.
  Variable f : Cr -> list X -> Cr * Y.
  Variable dx : X.
  Variable lax_scan : list (@scanned X) -> option nat -> res (option (Cr * list Y)).
  Notation scan := (scan f dx lax_scan).

  (** C30. The values of one step, read off the arrays: entry [j] of row [i] is entry [i] of array [j]. *)
  Definition transposed (xs : list (@scanned X)) (rows : list (list X)) : Prop :=
    forall i j r row, nth_error xs j = Some (Rows r) -> nth_error rows i = Some row -> nth_error row j = nth_error r i.

  (** C30. A scan over any number of arrays: whenever all first axes, and [length], agree on a positive size, the result is the fold over the rows.
      Without arrays an explicit [length] gives the number of steps. *)
  Theorem C30_several : forall kind fuel xs length_arg ck init empty l,
    kind <> KLax -> has_length xs length_arg l -> 0 < l -> l < fuel -> length (empty l) = l ->
    (match ck with SInt c => (1 <= c)%Z | _ => True end) ->
    exists rows, length rows = l /\ Forall (fun r => length r = length xs) rows /\ transposed xs rows /\
      scan kind fuel xs length_arg ck init empty = Ok (Some (scan_spec f rows init)).
  Proof.
    intros kind fuel xs length_arg ck init empty l Hk HL Hl Hf He Hc. exists (map (row dx xs) (seq 0 l)).
    assert (L : length (map (row dx xs) (seq 0 l)) = l) by (rewrite map_length, seq_length; reflexivity).
    split; [exact L|]. split; [|split].
    - apply Forall_forall. intros r Hr. apply in_map_iff in Hr as (i & <- & _). unfold row. apply map_length.
    - intros i j r w Hj Hi. assert (Hil : i < l) by (rewrite <- L; apply nth_error_Some; congruence).
      rewrite (map_nth_error (row dx xs) i (seq 0 l) (d := i)) in Hi.
      2:{ rewrite (nth_error_nth' _ 0) by (rewrite seq_length; exact Hil). rewrite seq_nth by exact Hil. reflexivity. }
      injection Hi as <-. unfold row. rewrite (map_nth_error _ _ _ Hj). destruct HL as (H1 & _).
      destruct (H1 _ (nth_error_In _ _ Hj)) as (r' & E & Hr). injection E as <-. symmetry. apply nth_error_nth'. lia.
    - unfold Scan_Model.scan. rewrite (proj2 (lengths_spec xs length_arg l) HL). cbn [bind].
      assert (E : scan_checkpointed f (map (row dx xs) (seq 0 l)) [] fuel (Some l) ck init (empty l) = Ok (Some (scan_spec f (map (row dx xs) (seq 0 l)) init))).
      { apply scan_correct; rewrite ?L; auto. }
      destruct kind; [contradiction|exact E..].
  Qed.

  (** C30. Any other [xs] and [length] are refused: arrays without a first axis with an [IndexError], disagreeing lengths, or none, with a [ValueError]. *)
  Theorem C30_lengths_refused : forall kind fuel xs length_arg ck init empty, kind <> KLax -> (forall l, ~ has_length xs length_arg l) ->
    scan kind fuel xs length_arg ck init empty = Err (if existsb (fun x => match x with Scalar _ => true | Rows _ => false end) xs then IndexError else ValueError).
  Proof.
    intros kind fuel xs length_arg ck init empty Hk H.
    assert (G : scan_lengths xs length_arg = Err (if existsb (fun x => match x with Scalar _ => true | Rows _ => false end) xs then IndexError else ValueError)).
    { destruct (scan_lengths xs length_arg) as [l|e] eqn:E; [exfalso; apply (H l), lengths_spec, E|]. unfold scan_lengths in E.
      assert (M : mapM first_dim xs = (if existsb (fun x => match x with Scalar _ => true | Rows _ => false end) xs then Err IndexError
                                       else Ok (map (fun x => match x with Scalar _ => 0 | Rows r => length r end) xs))).
      { clear. induction xs as [|[x|r] xs IH]; [reflexivity..|]. cbn [mapM first_dim existsb map bind orb]. rewrite IH.
        destruct (existsb _ xs); reflexivity. }
      rewrite M in E. destruct (existsb _ xs); cbn [bind] in E; [congruence|].
      destruct (nodup _ _) as [|a [|b r]]; try discriminate; congruence. }
    unfold Scan_Model.scan. rewrite G. destruct kind; [contradiction|reflexivity..].
  Qed.

  (** C30. Every kind but ["lax"] is taken for ["checkpointed"], misspelt ones included; [while_loop] refuses them (C23_refused). *)
  Theorem C30_unknown_kind_refuted : forall kind fuel xs length_arg ck init empty,
    scan kind fuel xs length_arg ck init empty =
    match kind with KLax => lax_scan xs length_arg | _ => scan KCheckpointed fuel xs length_arg ck init empty end.
  Proof. intros [] fuel xs length_arg ck init empty; reflexivity. Qed.
End Scans.
Print Assumptions C30_several.
Print Assumptions C30_lengths_refused.
Print Assumptions C30_unknown_kind_refuted.

(** Two arrays of three rows; a misspelt kind; a length that disagrees; no length at all. *)
Example C30_ex_several :
  let f := fun c x => (c + list_sum x, c) in
  let lax := fun _ _ => Err NotImplementedError in
  let xs := [Rows [1; 2; 3]; Rows [10; 20; 30]] in
  scan f 0 lax KOther 9 xs None SNone 0 (fun l => repeat 7 l) = Ok (Some (66, [0; 11; 33])) /\
  scan f 0 lax KCheckpointed 9 xs (Some 4) SNone 0 (fun l => repeat 7 l) = Err ValueError /\
  scan f 0 lax KCheckpointed 9 [] None SNone 0 (fun l => repeat 7 l) = Err ValueError /\
  scan f 0 lax KCheckpointed 9 [] (Some 2) SAll 5 (fun l => repeat 7 l) = Ok (Some (5, [5; 5])) /\
  scan f 0 lax KCheckpointed 9 [Scalar 1] None SNone 0 (fun l => repeat 7 l) = Err IndexError.
Proof. repeat split; reflexivity. Qed.
