(** C136: helpers for documentation, strings as pytrees. *)
From Coq Require Import Lia.
From Verif Require Import Base DocUtils_Model.
Local Open Scope nat_scope.
Local Open Scope list_scope.
Local Notation length := List.length.

Lemma mem_iff s l : mem s l = true <-> In s l.
Proof. unfold mem. rewrite existsb_exists. split; [intros (x & Hx & E); apply String.eqb_eq in E as ->; exact Hx|intros H; exists s; split; [exact H|apply String.eqb_refl]]. Qed.
Lemma kept_filter args ps : kept args ps = List.filter (fun p => negb (mem (pname p) args)) ps.
Proof. induction ps as [|p ps IH]; [reflexivity|]. cbn [kept List.filter]. rewrite IH. reflexivity. Qed.

(** What [inspect] accepts, without a loop: kinds in order, names different, and no positional parameter without a default after one with. *)
Definition ordered (ps : list param) : Prop := forall i j p q, i < j -> nth_error ps i = Some p -> nth_error ps j = Some q ->
  pkind p <= pkind q /\ pname p <> pname q /\ (pkind p <= 1 -> pkind q <= 1 -> pdefault p = true -> pdefault q = true).
Lemma ordered_cons p ps : ordered (p :: ps) <-> ordered ps /\ Forall (fun q => pkind p <= pkind q /\ pname p <> pname q /\ (pkind p <= 1 -> pkind q <= 1 -> pdefault p = true -> pdefault q = true)) ps.
Proof.
  split.
  - intros H. split; [intros i j a b L Ha Hb; apply (H (S i) (S j)); [lia|exact Ha|exact Hb]|]. apply Forall_forall. intros q Hq. apply In_nth_error in Hq as (j & Hj). apply (H 0 (S j)); [lia|reflexivity|exact Hj].
  - intros [H F] [|i] [|j] a b L Ha Hb; try lia; cbn [nth_error] in *; [|apply (H i j); [lia|assumption..]]. injection Ha as <-. rewrite Forall_forall in F. apply F. eapply nth_error_In. exact Hb.
Qed.
Lemma valid_iff : forall ps top d names, valid_from top d names ps = true <->
  ordered ps /\ Forall (fun q => top <= pkind q /\ ~ In (pname q) names /\ (d = true -> pkind q <= 1 -> pdefault q = true)) ps.
Proof.
  induction ps as [|p ps IH]; intros top d names; cbn [valid_from].
  { split; [intros _; split; [intros [|i] j a b _ Ha; discriminate|constructor]|reflexivity]. }
  rewrite ordered_cons, Forall_cons_iff. destruct (Nat.ltb_spec (pkind p) top) as [L|L]; [split; [discriminate|]; intros (_ & (H & _) & _); lia|].
  destruct ((pkind p <=? 1) && negb (pdefault p) && d) eqn:E1.
  { apply andb_true_iff in E1 as [E1 E3]. apply andb_true_iff in E1 as [E1 E2]. apply Nat.leb_le in E1. apply negb_true_iff in E2. split; [discriminate|]. intros (_ & (_ & _ & H) & _). rewrite (H E3 E1) in E2. discriminate. }
  destruct (mem (pname p) names) eqn:E2; [apply mem_iff in E2; split; [discriminate|]; intros (_ & (_ & H & _) & _); contradiction|].
  assert (N : ~ In (pname p) names) by (rewrite <- mem_iff; congruence).
  assert (D : d = true -> pkind p <= 1 -> pdefault p = true). { intros -> K. apply Nat.leb_le in K. rewrite K in E1. destruct (pdefault p); [reflexivity|discriminate]. }
  rewrite IH. rewrite !Forall_forall. split.
  - intros [O F]. split; [split; [exact O|]|split; [auto|]]; intros q Hq; destruct (F q Hq) as (F1 & F2 & F3).
    + split; [exact F1|split; [intros X; apply F2; left; exact X|]]. intros K1 K2 K3. apply F3; [|exact K2]. apply Nat.leb_le in K1. rewrite K1, K3. reflexivity.
    + split; [lia|split; [intros X; apply F2; right; exact X|]]. intros -> K. apply F3; [|exact K]. match goal with |- (if ?c then _ else _) = _ => destruct c; reflexivity end.
  - intros ((O & F) & _ & G). split; [exact O|]. intros q Hq. destruct (F q Hq) as (F1 & F2 & F3), (G q Hq) as (G1 & G2 & G3). split; [exact F1|split; [intros [X|X]; contradiction|]]. intros K1 K2.
    destruct ((pkind p <=? 1) && pdefault p) eqn:E; [|apply G3; assumption]. apply andb_true_iff in E as [Ea Eb]. apply Nat.leb_le in Ea. apply F3; assumption.
Qed.
Theorem C136_signature : forall ps, (replace ps = Ok ps <-> ordered ps) /\ (replace ps = Err ValueError <-> ~ ordered ps).
Proof.
  intros ps. assert (V : valid_from 0 false [] ps = true <-> ordered ps). { rewrite valid_iff. split; [tauto|]. intros H. split; [exact H|]. apply Forall_forall. intros q _. split; [lia|split; [intros []|discriminate]]. }
  unfold replace. destruct (valid_from 0 false [] ps).
  - assert (O : ordered ps) by (apply V; reflexivity). split; split; [intros _; exact O|reflexivity|discriminate|intros N; destruct (N O)].
  - assert (N : ~ ordered ps) by (intros O; apply V in O; discriminate). split; split; [discriminate|intros O; destruct (N O)|intros _; exact N|reflexivity].
Qed.
Print Assumptions C136_signature.
Lemma ordered_filter f ps : ordered ps -> ordered (List.filter f ps).
Proof.
  induction ps as [|p ps IH]; intros H; [exact H|]. apply ordered_cons in H as [H F]. cbn [List.filter]. destruct (f p); [|apply IH; exact H]. apply ordered_cons. split; [apply IH; exact H|].
  rewrite Forall_forall in *. intros q Hq. apply filter_In in Hq as [Hq _]. apply F. exact Hq.
Qed.
(** Removing arguments never fails, whatever names are given: exactly the parameters with other names stay, in their order; calls are as before. *)
Theorem C136_remove : forall A B (doc : bool) args (f : func A B), ordered (signature f) -> exists g, doc_remove_args doc args f = Ok g /\ run g = run f /\ ordered (signature g) /\
  signature g = if doc then List.filter (fun p => negb (existsb (String.eqb (pname p)) args)) (signature f) else signature f.
Proof.
  intros A B doc args f H. unfold doc_remove_args. destruct doc; [|exists f; auto]. rewrite kept_filter. assert (O := ordered_filter (fun p => negb (mem (pname p) args)) _ H).
  rewrite (proj2 (proj1 (C136_signature _)) O). eexists. split; [reflexivity|]. split; [reflexivity|]. split; [exact O|reflexivity].
Qed.
Print Assumptions C136_remove.
(** Twice is once with all names, in any order. *)
Theorem C136_remove_twice : forall A B doc args args' (f : func A B), ordered (signature f) ->
  bind (doc_remove_args doc args f) (doc_remove_args doc args') = doc_remove_args doc (args ++ args') f /\ bind (doc_remove_args doc args' f) (doc_remove_args doc args) = doc_remove_args doc (args ++ args') f.
Proof.
  intros A B doc args args' f H. destruct doc; [|split; reflexivity].
  assert (G : forall args (f : func A B), ordered (signature f) -> doc_remove_args true args f = Ok (mk_func (List.filter (fun p => negb (mem (pname p) args)) (signature f)) (run f))).
  { clear. intros args f H. unfold doc_remove_args. rewrite kept_filter, (proj2 (proj1 (C136_signature _)) (ordered_filter (fun p => negb (mem (pname p) args)) _ H)). reflexivity. }
  assert (M : forall a a' l, List.filter (fun p => negb (mem (pname p) a')) (List.filter (fun p => negb (mem (pname p) a)) l) = List.filter (fun p => negb (mem (pname p) (a ++ a'))) l).
  { intros a a'. induction l as [|p l IH]; [reflexivity|]. cbn [List.filter]. unfold mem in *. rewrite existsb_app. destruct (existsb (String.eqb (pname p)) a); cbn [negb orb List.filter]; rewrite IH; reflexivity. }
  assert (C : forall l, List.filter (fun p => negb (mem (pname p) (args' ++ args))) l = List.filter (fun p => negb (mem (pname p) (args ++ args'))) l).
  { intros l. apply filter_ext. intros p. unfold mem. rewrite !existsb_app, orb_comm. reflexivity. }
  split; rewrite !G by exact H; cbn [bind]; rewrite G by (cbn [signature]; apply ordered_filter; exact H); cbn [signature run]; rewrite M, ?C; reflexivity.
Qed.
Print Assumptions C136_remove_twice.
(** A changed [repr] does not change calls; outside the documentation nothing changes. *)
Theorem C136_repr : forall A B doc (o : object A B) s, call (doc_repr doc o s) = call o /\ repr (doc_repr doc o s) = (if doc then s else repr o) /\ doc_repr false o s = o.
Proof. intros A B [] o s; repeat split. Qed.
Print Assumptions C136_repr.

(** ** Strings *)
Lemma make_all_eq : forall msgs cs, make_all msgs cs = (cs ++ msgs, seq (length cs) (length msgs)).
Proof.
  induction msgs as [|m msgs IH]; intros cs; cbn [make_all]; [rewrite app_nil_r; reflexivity|]. unfold str2jax. rewrite IH, app_length, <- app_assoc. cbn [length app seq]. rewrite Nat.add_1_r. reflexivity.
Qed.
(** Every object keeps its own string, whatever is made before or after it; also after flattening and unflattening. *)
Theorem C136_str : forall cs msgs cs' os i m, make_all msgs cs = (cs', os) -> nth_error msgs i = Some m ->
  (exists o, nth_error os i = Some o /\ str_of cs' o = Some m /\ str_of cs' (unflatten (fst (flatten o)) (snd (flatten o))) = Some m) /\ forall o s, str_of cs o = Some s -> str_of cs' o = Some s.
Proof.
  intros cs msgs cs' os i m H Hm. rewrite make_all_eq in H. injection H as <- <-. assert (L : i < length msgs) by (apply nth_error_Some; congruence). split.
  - exists (length cs + i). split; [rewrite (nth_error_nth' _ 0) by (rewrite seq_length; exact L); rewrite seq_nth by exact L; reflexivity|].
    assert (E : str_of (cs ++ msgs) (length cs + i) = Some m) by (unfold str_of; rewrite nth_error_app2 by lia; rewrite Nat.add_comm, Nat.add_sub; exact Hm). split; exact E.
  - intros o s Hs. unfold str_of in *. rewrite nth_error_app1; [exact Hs|]. apply nth_error_Some. congruence.
Qed.
Print Assumptions C136_str.
(** Objects of different calls are never equal, even with equal strings, although all have one hash; an object equals its copies. *)
Theorem C136_equal : forall cs msgs cs' os i j o o', make_all msgs cs = (cs', os) -> nth_error os i = Some o -> nth_error os j = Some o' ->
  (equal o o' = true <-> i = j) /\ hash o = hash o' /\ equal o (unflatten (fst (flatten o)) (snd (flatten o))) = true.
Proof.
  intros cs msgs cs' os i j o o' H Hi Hj. rewrite make_all_eq in H. injection H as _ <-. assert (N := seq_NoDup (length msgs) (length cs)).
  split; [|split; [reflexivity|apply Nat.eqb_refl]]. unfold equal. cbn [flatten snd]. rewrite Nat.eqb_eq. split; [|intros ->; congruence]. intros <-. rewrite NoDup_nth_error in N. apply N; [apply nth_error_Some; congruence|congruence].
Qed.
Print Assumptions C136_equal.
(** So a jitted function is traced anew for every call of [str2jax], but once for one object. *)
Theorem C136_traces : forall cs msgs cs' os, make_all msgs cs = (cs', os) -> traces [] os = length msgs /\ forall o n, traces [] (repeat o (S n)) = 1.
Proof.
  intros cs msgs cs' os H. rewrite make_all_eq in H. injection H as _ <-. split.
  - assert (G : forall n s cache, Forall (fun o => o < s) cache -> traces cache (seq s n) = n).
    { induction n as [|n IH]; intros s cache F; [reflexivity|]. cbn [seq traces]. assert (E : existsb (equal s) cache = false). { apply not_true_iff_false. rewrite existsb_exists. intros (o & Ho & Eo). apply Nat.eqb_eq in Eo. cbn in Eo. subst o. rewrite Forall_forall in F. specialize (F _ Ho). lia. }
      rewrite E, IH; [reflexivity|]. constructor; [lia|]. eapply Forall_impl; [|exact F]. cbn. intros. lia. }
    apply G. constructor.
  - intros o n. cbn [repeat traces existsb]. f_equal. induction n as [|n IH]; [reflexivity|]. cbn [repeat traces existsb]. unfold equal at 1. cbn [flatten snd]. rewrite Nat.eqb_refl. exact IH.
Qed.
Print Assumptions C136_traces.

Local Open Scope string_scope.
(** [def f(x, msg="", *, inline=False)]. *)
Example C136_ex_remove : let f := mk_func [mk_param "x" 1 false; mk_param "msg" 1 true; mk_param "inline" 3 true] (fun n : nat => S n) in
  rmap signature (doc_remove_args true ["inline"; "other"] f) = Ok [mk_param "x" 1 false; mk_param "msg" 1 true] /\ doc_remove_args false ["inline"] f = Ok f /\ replace (signature f) = Ok (signature f) /\
  replace [mk_param "msg" 1 true; mk_param "x" 1 false] = Err ValueError /\ replace [mk_param "a" 3 true; mk_param "b" 1 true] = Err ValueError /\ replace [mk_param "a" 1 true; mk_param "a" 1 true] = Err ValueError /\
  replace [mk_param "a" 1 true; mk_param "b" 3 false] = Ok [mk_param "a" 1 true; mk_param "b" 3 false].
Proof. repeat split. Qed.
Example C136_ex_str : make_all ["a"; "a"; "b"] [] = (["a"; "a"; "b"], [0; 1; 2]) /\ equal 0 1 = false /\ traces [] [0; 1; 0; 2; 2] = 3.
Proof. repeat split. Qed.
