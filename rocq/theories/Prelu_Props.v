(** Property C76: PReLU (equinox/nn/_activations.py). *)
From Coq Require Import Reals Lra Lia List.
From Verif Require Import Prelu_Model.
Import ListNotations.
Local Open Scope nat_scope.
Local Open Scope list_scope.

(** ** Specification *)
(** Size of the axis [k] from the end; axes that are not there count as one. *)
Definition dim (s : list nat) (k : nat) : nat := nth k (rev s) 1.
(** Shapes that broadcast with each other, and the shape that results. *)
Definition compatible (s t : list nat) := forall k, dim s k = dim t k \/ dim s k = 1 \/ dim t k = 1.
Definition joint (s t r : list nat) :=
  length r = Nat.max (length s) (length t) /\ forall k, dim r k = if Nat.eqb (dim s k) 1 then dim t k else dim s k.
(** [s] broadcasts to [t]. *)
Definition fits (s t : list nat) := length s <= length t /\ forall k, dim s k = dim t k \/ dim s k = 1.
(** Index [j] of an array of shape [s] is used for index [i]: coordinates from the end agree, except along stretched axes. *)
Definition reads (s i j : list nat) :=
  length j = length s /\ forall k, k < length s -> nth k (rev j) 0 = if Nat.eqb (dim s k) 1 then 0 else nth k (rev i) 0.
Definition valid (s i : list nat) := Forall2 lt i s.

(** ** Broadcasting *)
Lemma broadcast_rev_ok : forall s t, (forall k, nth k s 1 = nth k t 1 \/ nth k s 1 = 1 \/ nth k t 1 = 1) ->
  exists r, broadcast_rev s t = Ok r /\ length r = Nat.max (length s) (length t) /\
            forall k, nth k r 1 = if Nat.eqb (nth k s 1) 1 then nth k t 1 else nth k s 1.
Proof.
  induction s as [ | a s IH ]; intros t H.
  - exists t. split; [ reflexivity | ]. split; [ reflexivity | ]. intros [ | k ]; reflexivity.
  - destruct t as [ | b t ].
    + exists (a :: s). split; [ reflexivity | ]. split; [ cbn; lia | ]. intro k.
      replace (nth k (@nil nat) 1) with 1 by (destruct k; reflexivity). destruct (Nat.eqb_spec (nth k (a :: s) 1) 1); auto.
    + destruct (IH t) as (r & E & Hl & Hr); [ intro k; exact (H (S k)) | ]. cbn [broadcast_rev]. rewrite E. cbn [bind].
      pose proof (H 0) as H0. cbn [nth] in H0.
      destruct (Nat.eqb_spec a b) as [ -> | Hab ]; [ | destruct (Nat.eqb_spec a 1) as [ -> | Ha ]; [ | destruct (Nat.eqb_spec b 1) as [ -> | Hb ]; [ | lia ] ] ];
        eexists; (split; [ reflexivity | split; [ cbn [length]; lia | intros [ | k ]; cbn [nth]; [ | apply Hr ] ] ]).
      * destruct (Nat.eqb_spec b 1); auto.
      * reflexivity.
      * destruct (Nat.eqb_spec a 1); auto; lia.
Qed.
Lemma broadcast_rev_err : forall s t, ~ (forall k, nth k s 1 = nth k t 1 \/ nth k s 1 = 1 \/ nth k t 1 = 1) -> broadcast_rev s t = Err ValueError.
Proof.
  induction s as [ | a s IH ]; intros t H.
  - destruct H. intros [ | k ]; auto.
  - destruct t as [ | b t ].
    + destruct H. intros [ | k ]; auto.
    + cbn [broadcast_rev]. destruct (broadcast_rev s t) as [ r | e ] eqn:E.
      * cbn [bind]. destruct (Nat.eqb_spec a b) as [ | Hab ]; [ | destruct (Nat.eqb_spec a 1) as [ | Ha ]; [ | destruct (Nat.eqb_spec b 1) as [ | Hb ]; [ | reflexivity ] ] ];
          exfalso;
          (assert (Hc : ~ (forall k, nth k s 1 = nth k t 1 \/ nth k s 1 = 1 \/ nth k t 1 = 1))
            by (intro Hc; apply H; intros [ | k ]; [ cbn [nth]; auto | apply Hc ]));
          apply IH in Hc; congruence.
      * cbn [bind]. destruct (IH t) as [ ]; [ | congruence ].
        intro Hc. destruct (broadcast_rev_ok s t Hc) as (r & Er & _). congruence.
Qed.
Lemma broadcast_ok s t : compatible s t -> exists r, broadcast s t = Ok r /\ joint s t r.
Proof.
  intro H. destruct (broadcast_rev_ok (rev s) (rev t) H) as (r & E & Hl & Hr). exists (rev r). unfold broadcast. rewrite E. split; [ reflexivity | ].
  split; [ rewrite !rev_length in *; exact Hl | ]. intro k. unfold dim at 1. rewrite rev_involutive. apply Hr.
Qed.
Lemma broadcast_err s t : ~ compatible s t -> broadcast s t = Err ValueError.
Proof. intro H. unfold broadcast. now rewrite (broadcast_rev_err _ _ H). Qed.
Lemma dim_ext s t : length s = length t -> (forall k, dim s k = dim t k) -> s = t.
Proof.
  intros Hl H. rewrite <- (rev_involutive s), <- (rev_involutive t). f_equal.
  apply nth_ext with (d := 1) (d' := 1); [ rewrite !rev_length; exact Hl | ]. intros k _. apply H.
Qed.
Lemma joint_unique s t r r' : joint s t r -> joint s t r' -> r = r'.
Proof. intros [ L H ] [ L' H' ]. apply dim_ext; [ congruence | ]. intro k. now rewrite H, H'. Qed.
Lemma compatible_dec s t : compatible s t \/ ~ compatible s t.
Proof.
  destruct (broadcast s t) as [ r | e ] eqn:E.
  - left. unfold compatible. intro k.
    destruct (Nat.eq_dec (dim s k) (dim t k)); auto. destruct (Nat.eq_dec (dim s k) 1); auto. destruct (Nat.eq_dec (dim t k) 1); auto.
    assert (Hn : ~ compatible s t) by (intro F; specialize (F k); lia). apply broadcast_err in Hn. congruence.
  - right. intro H. destruct (broadcast_ok _ _ H) as (r & E' & _). congruence.
Qed.
Lemma dim_beyond s k : length s <= k -> dim s k = 1.
Proof. intro H. unfold dim. apply nth_overflow. now rewrite rev_length. Qed.

Lemma rev_combine {A B} (u : list A) (v : list B) : length u = length v -> rev (List.combine u v) = List.combine (rev u) (rev v).
Proof.
  revert v. induction u as [ | a u IH ]; intros [ | b v ] H; try discriminate; [ reflexivity | ]. cbn in H. injection H as H.
  cbn [List.combine rev]. rewrite (IH v H). clear IH. assert (Hr : length (rev u) = length (rev v)) by now rewrite !rev_length.
  revert Hr. generalize (rev u) (rev v). clear. intros u. induction u as [ | x u IH ]; intros [ | y v ] H; try discriminate; [ reflexivity | ].
  cbn. f_equal. apply IH. now injection H.
Qed.
Lemma rev_skipn {A} (l : list A) m : m <= length l -> rev (skipn (length l - m) l) = firstn m (rev l).
Proof. intro H. rewrite firstn_rev. reflexivity. Qed.
Lemma nth_firstn_lt {A} (l : list A) m k d : k < m -> nth k (firstn m l) d = nth k l d.
Proof. revert m k. induction l as [ | x l IH ]; intros [ | m ] [ | k ] H; try lia; try reflexivity. cbn. apply IH. lia. Qed.
Lemma source_index_reads s i : length s <= length i -> reads s i (source_index s i).
Proof.
  intro H. unfold source_index. set (u := skipn (length i - length s) i).
  assert (Hu : length u = length s) by (unfold u; rewrite skipn_length; lia).
  split.
  - rewrite map_length, combine_length. lia.
  - intros k Hk. rewrite <- map_rev, rev_combine by lia. unfold u. rewrite rev_skipn by exact H.
    set (f := fun p : nat * nat => if Nat.eqb (fst p) 1 then 0 else snd p).
    rewrite (nth_indep _ 0 (f (1, 0))).
    2:{ rewrite map_length, combine_length, firstn_length, !rev_length. lia. }
    rewrite map_nth, combine_nth by (rewrite firstn_length, !rev_length; lia).
    unfold f. cbn [fst snd]. rewrite nth_firstn_lt by exact Hk. reflexivity.
Qed.
Lemma reads_unique s i j j' : reads s i j -> reads s i j' -> j = j'.
Proof.
  intros [ L H ] [ L' H' ]. rewrite <- (rev_involutive j), <- (rev_involutive j'). f_equal.
  apply nth_ext with (d := 0) (d' := 0); [ rewrite !rev_length; congruence | ]. intros k Hk. rewrite rev_length in Hk.
  rewrite H, H' by lia. reflexivity.
Qed.
Lemma Forall2_length {A B} {P : A -> B -> Prop} {u v} : Forall2 P u v -> length u = length v.
Proof. induction 1; cbn; congruence. Qed.
Lemma source_index_self s i : valid s i -> source_index s i = i.
Proof.
  intro H. unfold source_index. rewrite (Forall2_length H), Nat.sub_diag. cbn [skipn].
  induction H as [ | a b i' s' Hab H IH ]; [ reflexivity | ]. cbn. rewrite IH. destruct (Nat.eqb_spec b 1); f_equal. lia.
Qed.

(** ** C76 *)
(** C76. Of any input that broadcasts with the slope, [max(x, 0) + a * min(x, 0)] elementwise, in the joint shape. *)
Theorem C76_call : forall p x, compatible (ashape (negative_slope p)) (ashape x) ->
  exists y, call_prelu p x = Ok y /\ joint (ashape (negative_slope p)) (ashape x) (ashape y) /\
    forall i ia ix, valid (ashape y) i -> reads (ashape (negative_slope p)) i ia -> reads (ashape x) i ix ->
      aentry y i = (Rmax (aentry x ix) 0 + aentry (negative_slope p) ia * Rmin (aentry x ix) 0)%R.
Proof.
  intros [ a ] x H. cbn [negative_slope] in *. unfold call_prelu, lift2, where_. cbn [negative_slope].
  destruct (broadcast_ok _ _ H) as (r & E & Hj). rewrite E. cbn [bind ashape aentry].
  destruct Hj as [ Hl Hd ].
  assert (Hc : compatible (ashape x) r).
  { intro k. rewrite Hd. specialize (H k). destruct (Nat.eqb_spec (dim (ashape a) k) 1); lia. }
  destruct (broadcast_ok _ _ Hc) as (r2 & E2 & Hl2 & Hd2).
  assert (Hr : r2 = r).
  { apply dim_ext; [ lia | ]. intro k. rewrite Hd2, Hd. specialize (H k).
    destruct (Nat.eqb_spec (dim (ashape a) k) 1), (Nat.eqb_spec (dim (ashape x) k) 1); lia. }
  subst r2. rewrite E2. cbn [bind]. eexists. split; [ reflexivity | ]. cbn [ashape aentry]. split; [ split; assumption | ].
  intros i ia ix Hi Ha Hx. rewrite (source_index_self r i Hi).
  pose proof (Forall2_length Hi) as HL.
  rewrite (reads_unique _ _ _ _ (source_index_reads (ashape x) i ltac:(lia)) Hx).
  rewrite (reads_unique _ _ _ _ (source_index_reads (ashape a) i ltac:(lia)) Ha).
  unfold non_negative. destruct (Rle_dec 0 (aentry x ix)).
  - rewrite Rmax_left, Rmin_right by lra. lra.
  - rewrite Rmax_right, Rmin_left by lra. lra.
Qed.
Print Assumptions C76_call.
(** C76. Inputs that do not broadcast with the slope raise. *)
Theorem C76_refused : forall p x, ~ compatible (ashape (negative_slope p)) (ashape x) -> call_prelu p x = Err ValueError.
Proof. intros p x H. unfold call_prelu, lift2. now rewrite (broadcast_err _ _ H). Qed.
Print Assumptions C76_refused.
(** C76. The result has the shape of the input exactly if the slope broadcasts to the input. *)
Theorem C76_shape : forall p x y, call_prelu p x = Ok y -> (ashape y = ashape x <-> fits (ashape (negative_slope p)) (ashape x)).
Proof.
  intros p x y E. destruct (compatible_dec (ashape (negative_slope p)) (ashape x)) as [ H | H ]; [ | rewrite (C76_refused p x H) in E; discriminate ].
  destruct (C76_call p x H) as (y' & E' & [ Hl Hd ] & _). rewrite E in E'. injection E' as <-. split.
  - intro Hs. rewrite Hs in Hl, Hd. split; [ lia | ]. intro k. rewrite Hd. destruct (Nat.eqb_spec (dim (ashape (negative_slope p)) k) 1); auto.
  - intros [ Hl' Hf ]. apply dim_ext; [ lia | ]. intro k. rewrite Hd. destruct (Hf k) as [ -> | -> ]; [ | reflexivity ].
    destruct (Nat.eqb _ 1); reflexivity.
Qed.
Print Assumptions C76_shape.
(** C76. With a number as slope, any input is accepted, keeps its shape, and only its negative entries change, by the factor given. *)
Theorem C76_number : forall r x, exists y, call_prelu (make_prelu (Number r)) x = Ok y /\ ashape y = ashape x /\
  forall i, valid (ashape x) i -> aentry y i = (if Rlt_dec (aentry x i) 0 then r * aentry x i else aentry x i)%R.
Proof.
  intros r x. assert (Hc : compatible [] (ashape x)) by (intro k; right; left; destruct k; reflexivity).
  destruct (C76_call (make_prelu (Number r)) x Hc) as (y & E & Hj & Hf). exists y. split; [ exact E | ].
  assert (Hs : ashape y = ashape x).
  { apply (C76_shape _ _ _ E). split; [ cbn; lia | ]. intro k. right. destruct k; reflexivity. }
  split; [ exact Hs | ]. intros i Hi. rewrite (Hf i [] i).
  - cbn. destruct (Rlt_dec (aentry x i) 0); [ rewrite Rmax_right, Rmin_left by lra | rewrite Rmax_left, Rmin_right by lra ]; lra.
  - now rewrite Hs.
  - split; [ reflexivity | ]. cbn. intros; lia.
  - pose proof (source_index_reads (ashape x) i) as Hr. rewrite (source_index_self _ _ Hi) in Hr. apply Hr.
    pose proof (Forall2_length Hi). lia.
Qed.
Print Assumptions C76_number.
(** C76. As documented - the result has the shape of the input - the property fails. *)
Theorem C76_shape_refuted : exists p x y, call_prelu p x = Ok y /\ ashape y <> ashape x.
Proof.
  exists {| negative_slope := {| ashape := [2]; aentry := fun _ => 0%R |} |}, {| ashape := []; aentry := fun _ => 1%R |}.
  eexists. split; [ reflexivity | ]. discriminate.
Qed.
Print Assumptions C76_shape_refuted.

(** Non-vacuity: one slope per column of a matrix of two rows and two columns. *)
Example C76_ex : let p := make_prelu (Array {| ashape := [2]; aentry := fun i => match i with [0] => 2%R | _ => 3%R end |}) in
  let x := {| ashape := [2; 2]; aentry := fun i => match i with [0; 0] => 5%R | [1; 1] => (-7)%R | _ => (-1)%R end |} in
  compatible (ashape (negative_slope p)) (ashape x) /\ ~ compatible (ashape (negative_slope p)) [3] /\
  exists y, call_prelu p x = Ok y /\ ashape y = [2; 2] /\
    aentry y [0; 0] = 5%R /\ aentry y [1; 0] = (-2)%R /\ aentry y [0; 1] = (-3)%R /\ aentry y [1; 1] = (-21)%R.
Proof.
  intros p x. assert (Hc : compatible [2] [2; 2]) by (intros [ | [ | k ] ]; unfold dim; cbn; auto; destruct k; auto).
  split; [ exact Hc | ]. split; [ intro F; specialize (F 0); unfold dim in F; cbn in F; lia | ].
  eexists. split; [ reflexivity | ]. split; [ reflexivity | ].
  cbn. unfold non_negative. cbn. repeat (destruct (Rle_dec _ _); try lra); repeat split; lra.
Qed.
