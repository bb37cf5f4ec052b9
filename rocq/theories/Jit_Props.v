(** C32, C62, C63: filter_jit. *)
From Coq Require Import Ascii.
From Verif Require Import Jit_Model Jit_Proofs.
Local Open Scope nat_scope.
Local Open Scope list_scope.

(** Packing neither loses nor adds leaves. *)
Definition packs_leaves {A} (pack : list (tree A) -> list (string * tree A) -> tree A) : Prop :=
  forall rest kw, Permutation (leaves no_leaf (pack rest kw)) (flat_map (leaves no_leaf) rest ++ flat_map (fun e => leaves no_leaf (snd e)) kw).

(** ** C32 *)
Definition modes : list (string * (bool * bool)) := [("all", (true, true)); ("all-except-first", (false, true)); ("warn", (true, true)); ("warn-except-first", (false, true)); ("none", (false, false))]%string.
Theorem C32_modes : forall A is_array (f : tree A) donate,
  (forall d1 dr, In (donate, (d1, dr)) modes -> exists w, filter_jit A is_array f donate = Ok w /\ w_first A w = d1 /\ w_rest A w = dr /\
      (w_quiet A w = true <-> donate = "all" \/ donate = "all-except-first")%string) /\
  (~ In donate (map fst modes) -> filter_jit A is_array f donate = Err ValueError).
Proof.
  intros A is_array f donate. split.
  - intros d1 dr H. cbn in H. unfold filter_jit.
    repeat destruct H as [H|H]; try contradiction; injection H as <- <- <-; cbn; destruct (hashable_partition f is_array); eexists; (split; [reflexivity|]); cbn; (do 2 (split; [reflexivity|])); intuition discriminate.
  - intros H. unfold filter_jit. cbn in H.
    repeat match goal with |- context [String.eqb donate ?s] => destruct (String.eqb_spec donate s) as [->|]; [exfalso; apply H; tauto|] end. auto.
Qed.
Print Assumptions C32_modes.
(** Exactly the arrays of the documented groups are donated: those of the function object, the first
    bound argument, and the others. *)
Theorem C32_donated : forall A is_array pack unpack sig body Ab abs ab_eqb py_eqb def_eqb f donate w c args kw b,
  packs_leaves pack -> filter_jit A is_array f donate = Ok w -> sig_bind sig args kw = Ok b ->
  exists d1 dr, In (donate, (d1, dr)) modes /\
    Permutation (o_donated A Ab (call A is_array pack unpack sig body Ab abs ab_eqb py_eqb def_eqb w c args kw))
      ((if dr then arrays A is_array f else []) ++
       (if d1 then arrays A is_array (hd TNone (bound_args b)) else []) ++
       (if dr then flat_map (arrays A is_array) (tl (bound_args b)) ++ flat_map (fun e => arrays A is_array (snd e)) (bound_kwargs sig b) else [])).
Proof.
  intros A is_array pack unpack sig body Ab abs ab_eqb py_eqb def_eqb f donate w c args kw b HL HW HB.
  assert (HM : exists d1 dr, In (donate, (d1, dr)) modes /\ w_first A w = d1 /\ w_rest A w = dr).
  { destruct (in_dec string_dec donate (map fst modes)) as [HI|HI]; [|rewrite (proj2 (C32_modes A is_array f donate) HI) in HW; discriminate].
    apply in_map_iff in HI as ([m [d1 dr]] & <- & HI). destruct (proj1 (C32_modes A is_array f _) d1 dr HI) as (w' & HW' & H1 & H2 & _). cbn [fst] in *. rewrite HW' in HW. injection HW as <-. exists d1, dr. auto. }
  destruct HM as (d1 & dr & HI & H1 & H2). exists d1, dr. split; [auto|]. unfold filter_jit in HW. apply bind_ok in HW as ([[q x1] xr] & _ & HW).
  destruct (hashable_partition f is_array) as [df sf] eqn:EF. injection HW as <-. cbn [w_first w_rest] in *. subst x1 xr. unfold call. cbn [w_dfun w_sfun w_first w_rest]. unfold preprocess. rewrite HB. cbn [bind].
  destruct (hashable_partition (hd TNone (bound_args b ++ [TNone])) is_array) as [dfirst sfirst] eqn:E1.
  destruct (hashable_partition (pack (tl (bound_args b ++ [TNone])) (bound_kwargs sig b)) is_array) as [drest srest] eqn:E2.
  destruct (jitted _ _ _ _ _ _ _ _ _ _ c _ _ _) as [[r c'] n]. cbn [o_donated]. unfold donated. cbn [d_fun d_first d_rest].
  apply Permutation_app; [|apply Permutation_app].
  - destruct dr; [rewrite (somes_part _ _ _ _ _ EF)|]; auto.
  - destruct d1; [rewrite (somes_part _ _ _ _ _ E1)|]; auto. destruct (bound_args b); auto.
  - destruct dr; [|auto]. rewrite (somes_part _ _ _ _ _ E2). unfold arrays at 1.
    assert (HF : forall l r : list (tree A), Permutation l r -> Permutation (List.filter is_array l) (List.filter is_array r)).
    { induction 1 as [|x l l' H IH|x y l|l l' l'' H1 IH1 H2 IH2]; cbn; auto; [destruct (is_array x); auto|destruct (is_array x), (is_array y); auto; apply perm_swap|eapply perm_trans; eauto]. }
    eapply perm_trans; [apply HF, HL|]. rewrite filter_app. apply Permutation_app.
    + assert (E : forall l : list (tree A), List.filter is_array (flat_map (leaves no_leaf) l) = flat_map (arrays A is_array) l).
      { induction l as [|x l IH]; cbn; [auto|]. rewrite filter_app, IH. auto. }
      rewrite E. destruct (bound_args b) as [|x l]; [auto|]. cbn [app tl]. rewrite flat_map_app. cbn. rewrite app_nil_r. auto.
    + clear. induction (bound_kwargs sig b) as [|x l IH]; cbn; [auto|]. rewrite filter_app. apply Permutation_app; auto.
Qed.
Print Assumptions C32_donated.

(** ** C62: the compiled function computes what the function computes, whatever was called before. *)
Theorem C62_transparent : forall A is_array pack unpack sig body Ab abs ab_eqb py_eqb def_eqb f donate w c args kw,
  packs A pack unpack -> order_blind A body -> distinct sig -> exact_eq A py_eqb def_eqb -> NoDup (map fst kw) ->
  filter_jit A is_array f donate = Ok w ->
  o_result A Ab (call A is_array pack unpack sig body Ab abs ab_eqb py_eqb def_eqb w c args kw) = invoke A sig body f args kw.
Proof. intros A is_array pack unpack sig body Ab abs ab_eqb py_eqb def_eqb f donate w c args kw HP HO HD HE HN HW. eapply call_result; eauto. Qed.
Print Assumptions C62_transparent.
(** Binding normalises the call: calling with the bound arguments is calling with the given ones. *)
Theorem C62_bind : forall V (s : signature) (args : list V) kw b, distinct s -> NoDup (map fst kw) -> sig_bind s args kw = Ok b ->
  sig_bind s (bound_args b) (bound_kwargs s b) = Ok b.
Proof.
  intros V s args kw b HD HN H. unfold sig_bind in H. apply bind_ok in H as ([[p e] k1] & H1 & H). apply bind_ok in H as ([[o e'] k2] & H2 & H).
  destruct (bind_pos_inv _ _ _ _ _ _ H1) as (V1 & D1 & S1 & N1 & _). destruct (bind_pos_inv _ _ _ _ _ _ H2) as (V2 & D2 & S2 & N2 & E2). specialize (E2 eq_refl). subst e'.
  destruct (negb (varargs s) && (0 <? length e)) eqn:C1; [discriminate|]. destruct (negb (varkw s) && (0 <? length k2)) eqn:C2; [discriminate|]. injection H as <-.
  unfold sig_bind, bound_kwargs, bound_args. cbn [b_pos b_extra b_kwo b_kwx]. apply NoDup_app_both in HD as (P1 & P2 & P3). rewrite bind_again; auto.
  - cbn [bind]. rewrite bind_named; auto. cbn [bind]. rewrite C1, C2. auto.
  - intros n Hn. rewrite lookup_app; [apply S2, D1; auto|]. apply lookup_none. intros HI. apply named_keys in HI. eauto.
Qed.
Print Assumptions C62_bind.
(** A second call with arguments of the same kind and equal static parts is not traced again; a call is
    traced only if no earlier one was equal. *)
Theorem C62_traced_once : forall A is_array pack unpack sig body Ab abs ab_eqb py_eqb def_eqb w c args kw a b s,
  refl_eq A Ab ab_eqb py_eqb def_eqb ->
  preprocess A is_array pack sig (w_dfun A w) (w_sfun A w) (w_first A w) (w_rest A w) args kw = Ok (a, b, s) ->
  let o := call A is_array pack unpack sig body Ab abs ab_eqb py_eqb def_eqb w c args kw in
  (o_traced A Ab o = true <-> forall e, In e c -> hit A Ab abs ab_eqb py_eqb def_eqb a b s e = false) /\
  (exists e, In e (o_cache A Ab o) /\ hit A Ab abs ab_eqb py_eqb def_eqb a b s e = true) /\ (forall e, In e c -> In e (o_cache A Ab o)) /\
  forall args' kw' a' b', preprocess A is_array pack sig (w_dfun A w) (w_sfun A w) (w_first A w) (w_rest A w) args' kw' = Ok (a', b', s) ->
    abs_dyn A Ab abs a' = abs_dyn A Ab abs a -> abs_dyn A Ab abs b' = abs_dyn A Ab abs b ->
    o_traced A Ab (call A is_array pack unpack sig body Ab abs ab_eqb py_eqb def_eqb w (o_cache A Ab o) args' kw') = false.
Proof.
  intros A is_array pack unpack sig body Ab abs ab_eqb py_eqb def_eqb w c args kw a b s HR HP o.
  assert (HC : o_traced A Ab o = (match find (hit A Ab abs ab_eqb py_eqb def_eqb a b s) c with Some _ => false | None => true end) /\
    o_cache A Ab o = match find (hit A Ab abs ab_eqb py_eqb def_eqb a b s) c with Some _ => c | None => c ++ [(abs_dyn A Ab abs a, abs_dyn A Ab abs b, s)] end).
  { unfold o, call. rewrite HP. unfold jitted. destruct (find _ c) as [[[ea eb] s0]|]; auto. }
  destruct HC as [HC1 HC2]. clearbody o. assert (HH : hit A Ab abs ab_eqb py_eqb def_eqb a b s (abs_dyn A Ab abs a, abs_dyn A Ab abs b, s) = true).
  { unfold hit. rewrite !(abd_refl A Ab ab_eqb py_eqb def_eqb _ HR), (statics_refl A Ab ab_eqb py_eqb def_eqb _ HR). auto. }
  assert (HE : exists e, In e (o_cache A Ab o) /\ hit A Ab abs ab_eqb py_eqb def_eqb a b s e = true).
  { rewrite HC2. destruct (find _ c) as [e|] eqn:EF; [apply find_some in EF; eauto|]. eexists. split; [apply in_or_app; right; left; reflexivity|auto]. }
  split; [|split; [auto|split]].
  - rewrite HC1. destruct (find _ c) as [e|] eqn:EF; [|split; [|auto]; intros _; apply find_none; auto]. split; [discriminate|]. intros H. apply find_some in EF as [EF1 EF2]. rewrite H in EF2; auto.
  - intros e He. rewrite HC2. destruct (find _ c); [auto|apply in_or_app; auto].
  - intros args' kw' a' b' HP' Ea Eb. unfold call. rewrite HP'. unfold jitted. destruct HE as (e & He & HT).
    assert (HT' : hit A Ab abs ab_eqb py_eqb def_eqb a' b' s e = true) by (unfold hit in *; rewrite Ea, Eb; auto).
    destruct (find (hit A Ab abs ab_eqb py_eqb def_eqb a' b' s) (o_cache A Ab o)) as [[[ea eb] s0]|] eqn:EF; [auto|]. rewrite (find_none _ _ EF _ He) in HT'. discriminate.
Qed.
Print Assumptions C62_traced_once.

(** *** An instance *)
Inductive val := PArr (z : Z) | PInt (z : Z) | PBool (b : bool).
Definition v_arr (t : tree val) : bool := match t with Leaf (PArr _) => true | _ => false end.
Definition code (s : string) : tree val := Node 4 (map (fun c => Node (nat_of_ascii c) []) (list_ascii_of_string s)).
Definition decode (t : tree val) : string :=
  match t with Node _ cs => string_of_list_ascii (map (fun c => match c with Node k _ => ascii_of_nat k | _ => ascii_of_nat 0 end) cs) | _ => ""%string end.
Definition v_pack (rest : list (tree val)) (kw : list (string * tree val)) : tree val :=
  Node 0 [Node 1 rest; Node 2 (map (fun e => Node 3 [code (fst e); snd e]) kw)].
Definition v_unpack (t : tree val) : res (list (tree val) * list (string * tree val)) :=
  match t with
  | Node _ [Node _ rest; Node _ kws] => Ok (rest, map (fun e => match e with Node _ [k; v] => (decode k, v) | _ => (""%string, TNone) end) kws)
  | _ => Err TypeError
  end.
Lemma decode_code s : decode (code s) = s.
Proof.
  unfold decode, code. rewrite map_map. rewrite (map_ext _ (fun c => c)) by (intros; apply ascii_nat_embedding). rewrite map_id. apply string_of_list_ascii_of_string.
Qed.
Example packs_ex : packs val v_pack v_unpack /\ packs_leaves v_pack.
Proof.
  split.
  - intros rest kw. exists kw. split; [|auto]. unfold v_pack, v_unpack. f_equal. f_equal. rewrite map_map. rewrite (map_ext _ (fun e => e)); [apply map_id|]. intros [k v]. cbn [fst snd]. rewrite decode_code. auto.
  - intros rest kw. unfold v_pack. cbn [leaves no_leaf map concat]. rewrite app_nil_r. rewrite <- flat_map_concat_map. apply Permutation_app; [auto|].
    rewrite map_map, <- flat_map_concat_map. replace (flat_map _ kw) with (flat_map (fun e => leaves no_leaf (snd e)) kw); [auto|]. apply flat_map_ext. intros [k v]. cbn [leaves no_leaf map concat fst snd].
    assert (E : leaves no_leaf (code k) = []) by (unfold code; cbn [leaves no_leaf]; induction (list_ascii_of_string k); cbn; auto). rewrite E. cbn. rewrite app_nil_r. auto.
Qed.
(** def f(x, y=0): return (x, y) *)
Definition v_sig : signature := {| pos := [("x", false); ("y", true)]%string; varargs := false; kwonly := []; varkw := false |}.
Definition v_body (f : tree val) (b : bound (tree val)) : res (tree val) :=
  match b_pos b with [Some x; Some y] => Ok (Node 9 [f; x; y]) | [Some x; None] => Ok (Node 9 [f; x; Leaf (PInt 0)]) | _ => Err TypeError end.
Example body_ex : order_blind val v_body /\ distinct v_sig.
Proof. split; [intros f b b' (H & _); unfold v_body; rewrite H; auto|]. repeat constructor; cbn; intuition discriminate. Qed.
Definition v_abs (t : tree val) : bool := is_none t.
Section TreeEqb.
  Variables (X : Type) (eqb : X -> X -> bool).
  Fixpoint t_eqb (a b : tree X) : bool :=
    match a, b with
    | Leaf x, Leaf y => eqb x y
    | TNone, TNone => true
    | Node k cs, Node k' cs' => Nat.eqb k k' && ((fix go (l r : list (tree X)) : bool := match l, r with [], [] => true | x :: l', y :: r' => t_eqb x y && go l' r' | _, _ => false end) cs cs')
    | _, _ => false
    end.
  Lemma t_eqb_eq : (forall x y, eqb x y = true -> x = y) -> forall a b, t_eqb a b = true -> a = b.
  Proof.
    intros HX. induction a as [x| |k cs IH] using tree_ind'; intros [y| |k' cs'] H; try discriminate; auto; cbn [t_eqb] in H; [f_equal; auto|]. apply andb_true_iff in H as [H1 H2]. apply Nat.eqb_eq in H1 as <-. f_equal.
    revert cs' H2. induction IH as [|c cs Hc _ IHc]; intros [|c' cs'] H2; try discriminate; auto. apply andb_true_iff in H2 as [H2 H3]. f_equal; auto.
  Qed.
  Lemma t_eqb_refl : (forall x, eqb x x = true) -> forall a, t_eqb a a = true.
  Proof.
    intros HX. induction a as [x| |k cs IH] using tree_ind'; cbn [t_eqb]; auto. rewrite Nat.eqb_refl. cbn [andb]. induction IH as [|c cs Hc _ IHc]; [auto|]. rewrite Hc, IHc. auto.
  Qed.
End TreeEqb.
Definition val_eqb (x y : val) : bool := match x, y with PArr a, PArr b | PInt a, PInt b => Z.eqb a b | PBool a, PBool b => Bool.eqb a b | _, _ => false end.
Definition exact_py := t_eqb val val_eqb.
Definition d_eqb := t_eqb unit (fun _ _ => true).
Example exact_ex : exact_eq val exact_py d_eqb /\ refl_eq val bool Bool.eqb exact_py d_eqb.
Proof.
  split; split.
  - apply t_eqb_eq. intros [a|a|a] [b|b|b] H; try discriminate; cbn in H; [apply Z.eqb_eq in H|apply Z.eqb_eq in H|apply eqb_prop in H]; congruence.
  - apply t_eqb_eq. intros [] []; auto.
  - apply t_eqb_refl. intros [a|a|a]; cbn; [apply Z.eqb_refl|apply Z.eqb_refl|apply eqb_reflx].
  - split; [apply t_eqb_refl; auto|intros []; auto].
Qed.
(** Python: [1 == True], [0 == False]. *)
Definition num (x : val) : Z := match x with PInt a => a | PBool b => if b then 1 else 0 | PArr a => a end.
Definition python_eq (x y : tree val) : bool :=
  match x, y with Leaf a, Leaf b => Z.eqb (num a) (num b) | TNone, TNone => true | _, _ => false end.
Definition v_call eqb w c args kw := call val v_arr v_pack v_unpack v_sig v_body bool v_abs Bool.eqb eqb d_eqb w c args kw.
Definition v_w : wrapper val := {| w_dfun := [Leaf (PArr 7)]; w_sfun := ([TNone], Leaf tt); w_quiet := true; w_first := false; w_rest := true |}.
Example C32_ex : filter_jit val v_arr (Leaf (PArr 7)) "all-except-first" = Ok v_w /\
  o_donated _ _ (v_call exact_py v_w [] [] [("y", Leaf (PArr 2)); ("x", Leaf (PArr 1))]%string) = [Leaf (PArr 7); Leaf (PArr 2)] /\
  o_result _ _ (v_call exact_py v_w [] [] [("y", Leaf (PArr 2)); ("x", Leaf (PArr 1))]%string) = Ok (Node 9 [Leaf (PArr 7); Leaf (PArr 1); Leaf (PArr 2)]) /\
  o_result _ _ (v_call exact_py v_w [] [] [("y", Leaf (PArr 2))]%string) = Err TypeError.
Proof. split; [|split; [|split]]; vm_compute; reflexivity. Qed.
Example C62_ex : let o := v_call exact_py v_w [] [Leaf (PInt 1); Leaf (PArr 3)] [] in
  let o' := v_call exact_py v_w (o_cache _ _ o) [Leaf (PInt 1)] [("y"%string, Leaf (PArr 4))] in
  let o'' := v_call exact_py v_w (o_cache _ _ o) [Leaf (PInt 2)] [("y"%string, Leaf (PArr 4))] in
  (o_traced _ _ o, o_traced _ _ o', o_traced _ _ o'') = (true, false, true) /\
  o_result _ _ o' = Ok (Node 9 [Leaf (PArr 7); Leaf (PInt 1); Leaf (PArr 4)]) /\ o_result _ _ o'' = Ok (Node 9 [Leaf (PArr 7); Leaf (PInt 2); Leaf (PArr 4)]).
Proof. repeat split. Qed.
(** With Python's equality a result can come from a trace made for another static argument:
    [f(1)] and then [f(True)] returns 1. *)
Theorem C62_static_equality_refuted :
  let o := v_call python_eq v_w [] [Leaf (PInt 1)] [] in
  let o' := v_call python_eq v_w (o_cache _ _ o) [Leaf (PBool true)] [] in
  o_result _ _ o' <> invoke val v_sig v_body (Leaf (PArr 7)) [Leaf (PBool true)] [] /\
  o_result _ _ (v_call python_eq v_w [] [Leaf (PBool true)] []) = invoke val v_sig v_body (Leaf (PArr 7)) [Leaf (PBool true)] [].
Proof. split; vm_compute; congruence. Qed.
Print Assumptions C62_static_equality_refuted.

(** ** C63: ahead-of-time compilation *)
Theorem C63_compiled : forall A is_array pack unpack sig body Ab abs ab_eqb py_eqb def_eqb f donate w args0 kw0 args kw a b s a0 b0,
  packs A pack unpack -> order_blind A body -> distinct sig -> refl_eq A Ab ab_eqb py_eqb def_eqb -> NoDup (map fst kw) ->
  filter_jit A is_array f donate = Ok w ->
  preprocess A is_array pack sig (w_dfun A w) (w_sfun A w) (w_first A w) (w_rest A w) args0 kw0 = Ok (a0, b0, s) ->
  preprocess A is_array pack sig (w_dfun A w) (w_sfun A w) (w_first A w) (w_rest A w) args kw = Ok (a, b, s) ->
  abs_dyn A Ab abs a = abs_dyn A Ab abs a0 -> abs_dyn A Ab abs b = abs_dyn A Ab abs b0 ->
  exists c, compiled A is_array pack sig Ab abs w args0 kw0 = Ok c /\
    call_compiled A is_array pack unpack sig body Ab abs ab_eqb w c args kw = invoke A sig body f args kw.
Proof.
  intros A is_array pack unpack sig body Ab abs ab_eqb py_eqb def_eqb f donate w args0 kw0 args kw a b s a0 b0 HP HO HD HR HN HW H0 H1 Ea Eb. unfold compiled. rewrite H0. cbn [bind]. eexists. split; [reflexivity|].
  unfold call_compiled. rewrite H1. cbn [bind]. rewrite Ea, Eb. assert (E : forall x, abd_eqb Ab ab_eqb x x = true) by (intros; eapply abd_refl; eauto). rewrite !E. cbn [andb].
  unfold filter_jit in HW. apply bind_ok in HW as ([[q d1] dr] & _ & HW). pose proof (preprocess_ok A is_array pack unpack sig body HP HO HD f d1 dr args kw a b s) as HQ.
  destruct (hashable_partition f is_array) as [df sf] eqn:EF. injection HW as <-. cbn [w_dfun w_sfun w_first w_rest] in H1. destruct (HQ HN H1) as (out & E1 & E2). rewrite E1. auto.
Qed.
Print Assumptions C63_compiled.
(** Static arguments of later calls are ignored. *)
Theorem C63_static_ignored_refuted : exists c, compiled val v_arr v_pack v_sig bool v_abs v_w [Leaf (PInt 1)] [] = Ok c /\
  call_compiled val v_arr v_pack v_unpack v_sig v_body bool v_abs Bool.eqb v_w c [Leaf (PInt 2)] [] = Ok (Node 9 [Leaf (PArr 7); Leaf (PInt 1); Leaf (PInt 0)]).
Proof. eexists. split; vm_compute; reflexivity. Qed.
Print Assumptions C63_static_ignored_refuted.
Example C63_ex : exists c, compiled val v_arr v_pack v_sig bool v_abs v_w [Leaf (PArr 1)] [] = Ok c /\
  call_compiled val v_arr v_pack v_unpack v_sig v_body bool v_abs Bool.eqb v_w c [] [("x"%string, Leaf (PArr 2))] = Ok (Node 9 [Leaf (PArr 7); Leaf (PArr 2); Leaf (PInt 0)]) /\
  call_compiled val v_arr v_pack v_unpack v_sig v_body bool v_abs Bool.eqb v_w c [Leaf (PInt 3)] [] = Err TypeError.
Proof. eexists. split; [|split]; vm_compute; reflexivity. Qed.

(** Arguments that do not fit the signature are refused with [TypeError]. *)
Theorem C62_bind_errors : forall V (s : signature) (args : list V) kw e, sig_bind s args kw = Err e -> e = TypeError.
Proof.
  intros V s args kw e H. unfold sig_bind in H.
  assert (HP : forall ps (args : list V) kw e, bind_pos ps args kw = Err e -> e = TypeError).
  { clear. induction ps as [|[n d] ps IH]; intros args kw e H; cbn [bind_pos] in H; [discriminate|].
    destruct args as [|a args].
    - destruct (lookup n kw) as [v|].
      + destruct (bind_pos ps [] (without n kw)) as [[[r x] k]|e'] eqn:E; cbn in H; [discriminate|]. injection H as <-. exact (IH _ _ _ E).
      + destruct d; [|congruence]. destruct (bind_pos ps [] kw) as [[[r x] k]|e'] eqn:E; cbn in H; [discriminate|]. injection H as <-. exact (IH _ _ _ E).
    - destruct (lookup n kw) as [v|]; [congruence|].
      destruct (bind_pos ps args kw) as [[[r x] k]|e'] eqn:E; cbn in H; [discriminate|]. injection H as <-. exact (IH _ _ _ E). }
  destruct (bind_pos (pos s) args kw) as [[[p x] kw1]|e'] eqn:E1; cbn [bind] in H; [|injection H as <-; exact (HP _ _ _ _ E1)].
  destruct (bind_pos (kwonly s) [] kw1) as [[[o y] kw2]|e'] eqn:E2; cbn [bind] in H; [|injection H as <-; exact (HP _ _ _ _ E2)].
  repeat (match type of H with (if ?b then _ else _) = _ => destruct b end); congruence.
Qed.
Print Assumptions C62_bind_errors.

(** C62. Arguments that do not bind are refused before anything happens: nothing is donated, traced or cached. *)
Theorem C62_unbound : forall A is_array pack unpack sig body Ab abs ab_eqb py_eqb def_eqb (w : wrapper A) c args kw,
  (forall b, sig_bind sig args kw <> Ok b) ->
  call A is_array pack unpack sig body Ab abs ab_eqb py_eqb def_eqb w c args kw = {| o_result := Err TypeError; o_donated := []; o_cache := c; o_traced := false |}.
Proof.
  intros A is_array pack unpack sig body Ab abs ab_eqb py_eqb def_eqb w c args kw H. unfold call, preprocess. destruct (sig_bind sig args kw) as [b|e] eqn:E; [destruct (H b eq_refl)|].
  apply C62_bind_errors in E as ->. reflexivity.
Qed.
Print Assumptions C62_unbound.

(** If shapes and dtypes are compared exactly, a call is traced exactly if no earlier one had the same shapes, dtypes and static parts. *)
Lemma abd_eq Ab (ab_eqb : Ab -> Ab -> bool) : (forall x y, ab_eqb x y = true -> x = y) -> forall a b, abd_eqb Ab ab_eqb a b = true -> a = b.
Proof.
  intros H [[a1 a2] a3] [[b1 b2] b3] E. unfold abd_eqb in E. rewrite !andb_true_iff in E. destruct E as [[E1 E2] E3].
  assert (G : forall x y, opt_eqb (list_eqb ab_eqb) x y = true -> x = y).
  { intros [x|] [y|] HE; cbn in HE; try discriminate; [|reflexivity]. apply (list_eqb_eq _ H) in HE. congruence. }
  apply G in E1, E2, E3. congruence.
Qed.
Theorem C62_traced_again : forall A is_array pack unpack sig body Ab abs ab_eqb py_eqb def_eqb w c args kw a b s,
  refl_eq A Ab ab_eqb py_eqb def_eqb -> exact_eq A py_eqb def_eqb -> (forall x y, ab_eqb x y = true -> x = y) ->
  preprocess A is_array pack sig (w_dfun A w) (w_sfun A w) (w_first A w) (w_rest A w) args kw = Ok (a, b, s) ->
  (o_traced A Ab (call A is_array pack unpack sig body Ab abs ab_eqb py_eqb def_eqb w c args kw) = true <->
   ~ In (abs_dyn A Ab abs a, abs_dyn A Ab abs b, s) c).
Proof.
  intros A is_array pack unpack sig body Ab abs ab_eqb py_eqb def_eqb w c args kw a b s HR HE HA HP.
  destruct (C62_traced_once A is_array pack unpack sig body Ab abs ab_eqb py_eqb def_eqb w c args kw a b s HR HP) as [HT _]. rewrite HT. split.
  - intros H HI. apply H in HI. unfold hit in HI. rewrite !(abd_refl A Ab ab_eqb py_eqb def_eqb _ HR), (statics_refl A Ab ab_eqb py_eqb def_eqb _ HR) in HI. discriminate HI.
  - intros H [[ea eb] es] HI. destruct (hit A Ab abs ab_eqb py_eqb def_eqb a b s (ea, eb, es)) eqn:EH; [|reflexivity]. exfalso. apply H.
    unfold hit in EH. rewrite !andb_true_iff in EH. destruct EH as [[E1 E2] E3]. apply (abd_eq _ _ HA) in E1, E2. apply (statics_eq A py_eqb def_eqb _ _ HE) in E3. subst. exact HI.
Qed.
Print Assumptions C62_traced_again.
(** A compiled function refuses arguments of other shapes or dtypes. *)
Theorem C63_refused : forall A is_array pack unpack sig body Ab abs (ab_eqb : Ab -> Ab -> bool) w args0 kw0 args kw a b s a0 b0 s0,
  (forall x y, ab_eqb x y = true -> x = y) ->
  preprocess A is_array pack sig (w_dfun A w) (w_sfun A w) (w_first A w) (w_rest A w) args0 kw0 = Ok (a0, b0, s0) ->
  preprocess A is_array pack sig (w_dfun A w) (w_sfun A w) (w_first A w) (w_rest A w) args kw = Ok (a, b, s) ->
  abs_dyn A Ab abs a <> abs_dyn A Ab abs a0 \/ abs_dyn A Ab abs b <> abs_dyn A Ab abs b0 ->
  exists c, compiled A is_array pack sig Ab abs w args0 kw0 = Ok c /\
    call_compiled A is_array pack unpack sig body Ab abs ab_eqb w c args kw = Err TypeError.
Proof.
  intros A is_array pack unpack sig body Ab abs ab_eqb w args0 kw0 args kw a b s a0 b0 s0 HA H0 H1 HN. unfold compiled. rewrite H0. cbn [bind]. eexists. split; [reflexivity|].
  unfold call_compiled. rewrite H1. cbn [bind]. destruct (abd_eqb Ab ab_eqb (abs_dyn A Ab abs a) (abs_dyn A Ab abs a0) && abd_eqb Ab ab_eqb (abs_dyn A Ab abs b) (abs_dyn A Ab abs b0)) eqn:E; [|reflexivity].
  apply andb_true_iff in E as [E1 E2]. apply (abd_eq _ _ HA) in E1, E2. destruct HN as [HN|HN]; contradiction.
Qed.
Print Assumptions C63_refused.
