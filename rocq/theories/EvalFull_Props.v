(** C68, continued: [eval_empty], [eval_zero] and [eval_full]. *)
From Verif Require Import Leafwise Closure_Props.
From Verif Require Export EvalFull_Model.

Lemma tree_mapM_ok {L} (f : L -> res L) (g : L -> L) (t : tree L) :
  (forall a, In a (labels t) -> f a = Ok (g a)) -> tree_mapM f t = Ok (lw (fun a => Leaf (g a)) t).
Proof.
  induction t as [a| |k cs IH] using tree_ind'; intros H; cbn [tree_mapM lw]; [|reflexivity|].
  - rewrite H by (left; reflexivity). reflexivity.
  - enough (E : mapM (tree_mapM f) cs = Ok (map (lw (fun a => Leaf (g a))) cs)) by (rewrite E; reflexivity).
    cbn [labels] in H. induction IH as [|c cs Hc _ IHcs]; [reflexivity|]. cbn [mapM map] in *. cbn [concat] in H.
    rewrite Hc by (intros a Ha; apply H, in_or_app; auto). cbn [bind].
    rewrite IHcs by (intros a Ha; apply H, in_or_app; auto). reflexivity.
Qed.
Lemma tree_mapM_err {L} (f : L -> res L) e (t : tree L) :
  (forall a, In a (labels t) -> (exists b, f a = Ok b) \/ f a = Err e) -> (exists a, In a (labels t) /\ f a = Err e) ->
  tree_mapM f t = Err e.
Proof.
  induction t as [a| |k cs IH] using tree_ind'; intros H (x & Hx & Ex); cbn [tree_mapM]; [|destruct Hx|].
  - destruct Hx as [->|[]]. rewrite Ex. reflexivity.
  - enough (E : mapM (tree_mapM f) cs = Err e) by (rewrite E; reflexivity).
    cbn [labels] in *. induction IH as [|c cs Hc _ IHcs]; [destruct Hx|]. cbn [mapM map concat] in *.
    assert (D : (exists a, In a (labels c) /\ f a = Err e) \/ forall a, In a (labels c) -> exists b, f a = Ok b).
    { assert (Hl : forall a, In a (labels c) -> (exists b, f a = Ok b) \/ f a = Err e) by (intros a Ha; apply H, in_or_app; auto).
      clear -Hl. induction (labels c) as [|a l IHl]; [right; intros a []|].
      destruct (Hl a (or_introl eq_refl)) as [Ha|Ha]; [|left; exists a; split; [left|]; auto].
      destruct IHl as [(b & Hb & Eb)|IHl]; [intros b Hb; apply Hl; right; auto|left; exists b; split; [right|]; auto|].
      right. intros b [<-|Hb]; auto. }
    destruct D as [D|D].
    + rewrite Hc; [reflexivity| |exact D]. intros a Ha. apply H, in_or_app; auto.
    + assert (G : exists c', tree_mapM f c = Ok c').
      { exists (lw (fun a => Leaf (match f a with Ok b => b | Err _ => a end)) c). apply tree_mapM_ok.
        intros a Ha. destruct (D a Ha) as (b & Eb). rewrite Eb. reflexivity. }
      destruct G as (c' & ->). cbn [bind]. rewrite IHcs; [reflexivity| |].
      * intros a Ha. apply H, in_or_app; auto.
      * apply in_app_or in Hx as [Hx|Hx]; [|exact Hx]. destruct (D x Hx) as (b & Eb). congruence.
Qed.

(** The result has the structure of the function's output, and in place of each array one of its shape and
    dtype; the output then consists of arrays only. *)
Theorem C68_eval_full : forall {L S} (is_arr is_sds : L -> bool) (struct : L -> S) sds strip leq trace fill,
  tracing is_arr struct trace -> (forall s, is_sds (sds s) = true /\ is_arr (sds s) = false /\ struct (sds s) = s) ->
  (forall a, is_sds a = true -> is_arr a = false) ->
  forall call (zf za zk : tree (L * L)) r,
  eval_full is_arr is_sds struct sds strip trace fill call (example zf) (example za) (example zk) = Ok r ->
  let fit := all_fit is_arr is_sds struct leq same in
  fit zf -> fit za -> fit zk ->
  let mix := mixed is_arr is_sds in
  exists out, call (mix zf) (mix za) (mix zk) = Ok out /\
    (forall a, In a (labels out) -> is_arr a = true) /\
    r = lw (fun a => Leaf (fill (strip (struct a)))) out.
Proof.
  intros L S is_arr is_sds struct sds strip leq trace fill TR SK KI call zf za zk r H fit Hf Ha Hk mix. unfold eval_full in H.
  apply bind_ok in H as (r0 & H0 & H).
  destruct (C68_eval_shape is_arr is_sds struct sds leq trace TR KI call zf za zk r0 H0 Hf Ha Hk) as (out & Ho & Hn & ->).
  exists out. split; [exact Ho|].
  assert (A : forall a, In a (labels out) -> is_arr a = true).
  { intros a Hin. destruct (is_arr a) eqn:E; [reflexivity|]. exfalso.
    rewrite (tree_mapM_err _ AttributeError) in H; [discriminate| |].
    - intros b Hb. destruct (is_struct is_arr is_sds b); eauto.
    - exists a. rewrite labels_lw. split; [apply in_flat_map; exists a; split; [exact Hin|rewrite E; left; reflexivity]|].
      unfold is_struct. rewrite E, (Hn a Hin). reflexivity. }
  split; [exact A|]. rewrite (tree_mapM_ok _ (fun a => fill (strip (struct a)))) in H.
  - injection H as <-. rewrite lw_lw. apply lw_ext_in. intros a Hin. cbn [lw]. rewrite (A a Hin). destruct (SK (struct a)) as (_ & _ & ->). reflexivity.
  - intros b Hb. rewrite labels_lw in Hb. apply in_flat_map in Hb as (a & Hin & [<-|[]]). rewrite (A a Hin).
    unfold is_struct. destruct (SK (struct a)) as (-> & _ & _). rewrite orb_true_r. reflexivity.
Qed.
Print Assumptions C68_eval_full.
(** A function with any output that is no array is refused with [AttributeError], though its shape can be
    evaluated. *)
Theorem C68_eval_full_refused : forall {L S} (is_arr is_sds : L -> bool) (struct : L -> S) sds strip leq trace fill,
  tracing is_arr struct trace -> (forall a, is_sds a = true -> is_arr a = false) ->
  forall call (zf za zk : tree (L * L)) r out a,
  eval_shape is_arr is_sds struct sds trace call (example zf) (example za) (example zk) = Ok r ->
  let fit := all_fit is_arr is_sds struct leq same in
  fit zf -> fit za -> fit zk ->
  let mix := mixed is_arr is_sds in
  call (mix zf) (mix za) (mix zk) = Ok out -> In a (labels out) -> is_arr a = false ->
  eval_full is_arr is_sds struct sds strip trace fill call (example zf) (example za) (example zk) = Err AttributeError.
Proof.
  intros L S is_arr is_sds struct sds strip leq trace fill TR KI call zf za zk r out a H0 fit Hf Ha Hk mix Ho Hin E. unfold eval_full.
  rewrite H0. cbn [bind].
  destruct (C68_eval_shape is_arr is_sds struct sds leq trace TR KI call zf za zk r H0 Hf Ha Hk) as (out' & Ho' & Hn & ->).
  assert (out' = out) by (unfold mix in *; congruence). subst out'.
  apply tree_mapM_err.
  - intros b Hb. destruct (is_struct is_arr is_sds b); eauto.
  - exists a. rewrite labels_lw. split; [apply in_flat_map; exists a; split; [exact Hin|rewrite E; left; reflexivity]|].
    unfold is_struct. rewrite E, (Hn a Hin). reflexivity.
Qed.
Print Assumptions C68_eval_full_refused.
Example C68_ex_full :
  let full := eval_full i_arr i_sds i_struct Sds i_strip i_trace (fun s => Arr s true) in
  full (fun _ args _ => match args with Node _ [a] => Ok (Node 5 [a; a]) | _ => Err TypeError end) (Leaf (Num 9 9)) (Node 0 [Leaf (Arr true false)]) (Node 1 [])
    = Ok (Node 5 [Leaf (Arr false true); Leaf (Arr false true)])
  /\ full ex_py (Leaf (Num 9 9)) (Node 0 [Leaf (Arr true true); Leaf (Num 0 3)]) (Node 1 []) = Err AttributeError.
Proof. split; reflexivity. Qed.
