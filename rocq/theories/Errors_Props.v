(** C33: error_if, branched_error_if. *)
From Verif Require Import Errors_Model Errors_Proofs.
Local Open Scope nat_scope.
Local Open Scope list_scope.

(** The mode in force: the argument, or EQX_ON_ERROR. *)
Definition in_force (env mode m : string) : Prop := (mode = "default" /\ env = m \/ mode = m)%string /\ (m = "raise" \/ m = "breakpoint" \/ m = "nan")%string.
(** A predicate fires if any of its elements (over the whole batch) is True. *)
Definition fires (p : predicate) : Prop := p = PyBool true \/ exists bs, p = BoolArr bs /\ In true bs.
(** The largest index of the whole batch. *)
Definition picks (i : index) (z : Z) : Prop := i = PyInt z \/ exists zs, i = IntArr zs /\ In z zs /\ forall y, In y zs -> (y <= z)%Z.
(** Python's [msgs[z]]. *)
Definition message (msgs : list string) (z : Z) (m : string) : Prop :=
  exists n, nth_error msgs n = Some m /\ (z = Z.of_nat n \/ (z < 0)%Z /\ (z + Z.of_nat (length msgs))%Z = Z.of_nat n).
Definition python (p : predicate) (i : index) : Prop := (exists b, p = PyBool b) /\ (exists z, i = PyInt z).

Lemma force_eq env mode m : in_force env mode m -> (if String.eqb mode "default"%string then env else mode) = m /\ negb (String.eqb mode "default"%string) && negb (valid_mode mode) = false.
Proof.
  intros [[[-> ->]| ->] H]; [auto|]. destruct H as [->|[->| ->]]; auto.
Qed.
Lemma fires_eq p : fires p <-> snd (pred_value p) = true.
Proof.
  unfold fires. destruct p as [b|bs]; cbn [pred_value snd].
  - split; [intros [H|(? & H & _)]; congruence|intros ->; auto].
  - unfold unvmap_any. rewrite existsb_In. split; [intros [H|(bs' & H & HI)]; [discriminate|injection H as ->; auto]|intros H; right; eauto].
Qed.
Lemma not_fires p : ~ fires p -> snd (pred_value p) = false.
Proof. intros H. destruct (snd (pred_value p)) eqn:E; [|auto]. exfalso. apply H, fires_eq, E. Qed.
Lemma picks_eq i z : picks i z -> exists c, index_value i = Ok (c, z) /\ (c = true -> i = PyInt z) /\ (i = PyInt z -> c = true).
Proof.
  intros [->|(zs & -> & H1 & H2)]; [eexists; split; [reflexivity|auto]|]. destruct zs as [|w zs]; [destruct H1|]. cbn [index_value unvmap_max bind]. destruct (fold_max_spec zs w) as [M1 M2].
  assert (E : fold_left Z.max zs w = z) by (apply Z.le_antisymm; auto). rewrite E. eexists. split; [reflexivity|]. split; discriminate.
Qed.

(** No True: [x] comes back; if the predicate is traced, [x] must contain an array. *)
Theorem C33_quiet : forall V D Ob kind_of fill np_type env mode m (x : tree (leaf V D Ob)) p i z msgs,
  in_force env mode m -> ~ fires p -> picks i z ->
  (p = PyBool false \/ has_array V D Ob x -> branched_error_if V D Ob kind_of fill np_type env mode x p i msgs = ([], Return _ _ _ x)) /\
  (p <> PyBool false -> ~ has_array V D Ob x -> branched_error_if V D Ob kind_of fill np_type env mode x p i msgs = ([], Raises _ _ _ ValueError)).
Proof.
  intros V D Ob kind_of fill np_type env mode m x p i z msgs HF HP HI. apply not_fires in HP. destruct (picks_eq _ _ HI) as (c & EI & _). destruct (force_eq _ _ _ HF) as [E1 E2]. unfold branched_error_if, impl. rewrite E1, E2, EI.
  destruct p as [b|bs]; cbn [pred_value snd] in *; subst; cbn [pred_value].
  - split; [intros _; auto|congruence].
  - cbn [andb]. split; [intros [H|H]; [discriminate|rewrite HP; apply runtime_false; auto]|intros _ H; apply runtime_none; auto].
Qed.
Print Assumptions C33_quiet.

(** A Python True and a Python index: raised while tracing, arrays or not. *)
Theorem C33_trace_raise : forall V D Ob kind_of fill np_type env mode (x : tree (leaf V D Ob)) z msgs,
  in_force env mode "raise"%string ->
  (forall m, message msgs z m -> branched_error_if V D Ob kind_of fill np_type env mode x (PyBool true) (PyInt z) msgs = ([], TraceError _ _ _ m)) /\
  ((forall m, ~ message msgs z m) -> branched_error_if V D Ob kind_of fill np_type env mode x (PyBool true) (PyInt z) msgs = ([], Raises _ _ _ IndexError)).
Proof.
  intros V D Ob kind_of fill np_type env mode x z msgs HF. destruct (force_eq _ _ _ HF) as [E1 E2]. unfold branched_error_if, impl. rewrite E1, E2. cbn. split.
  - intros m H. apply py_index_spec in H. rewrite H. auto.
  - intros H. destruct (py_index msgs z) as [m|e] eqn:E; [apply py_index_spec in E; exfalso; eapply H; eauto|]. unfold py_index in E. destruct (_ && _)%bool in E; [|congruence]. destruct (nth_error _ _); congruence.
Qed.
Print Assumptions C33_trace_raise.

(** Predicate or index traced: at run time, with the message of the largest index of the batch. *)
Theorem C33_run : forall V D Ob kind_of fill np_type env mode m (x : tree (leaf V D Ob)) p i z msgs msg,
  in_force env mode m -> fires p -> picks i z -> ~ python p i -> message msgs z msg ->
  let out := branched_error_if V D Ob kind_of fill np_type env mode x p i msgs in
  (has_array V D Ob x ->
     (m = "raise"%string -> out = ([], RunError _ _ _ msg)) /\
     (m = "nan"%string -> out = ([], Return _ _ _ (poison V D Ob kind_of fill x))) /\
     (m = "breakpoint"%string -> ~ has_odd V D Ob kind_of x -> out = ([RunBreak msg], Return _ _ _ (poison V D Ob kind_of fill x))) /\
     (m = "breakpoint"%string -> has_odd V D Ob kind_of x -> out = ([RunBreak msg], CallbackFails _ _ _))) /\
  (~ has_array V D Ob x -> out = ([], Raises _ _ _ ValueError)).
Proof.
  intros V D Ob kind_of fill np_type env mode m x p i z msgs msg HF HP HI HN HM out. apply fires_eq in HP. destruct (picks_eq _ _ HI) as (c & EI & EC & _). destruct (force_eq _ _ _ HF) as [E1 E2]. apply py_index_spec in HM.
  assert (E : out = runtime V D Ob kind_of fill np_type m x true z msgs).
  { unfold out, branched_error_if, impl. rewrite E1, E2, EI. destruct p as [b|bs]; cbn [pred_value snd] in *; subst; cbn [andb negb].
    - destruct c; [|auto]. exfalso. apply HN. split; [eauto|]. exists z. auto.
    - rewrite HP. auto. }
  rewrite E. split; [|apply runtime_none]. intros H. split; [|split; [|split]]; intros ->; [rewrite runtime_raise, HM; auto|apply runtime_nan; auto|intros HO; apply runtime_break; auto|intros HO; apply runtime_break_odd; auto].
Qed.
Print Assumptions C33_run.

(** NaN mode while tracing: right for trees of arrays. *)
Theorem C33_trace_nan_partial : forall V D Ob kind_of fill np_type env mode (x : tree (leaf V D Ob)) z msgs,
  in_force env mode "nan"%string -> (forall o, ~ In (Leaf (Obj V D Ob o)) (leaves no_leaf x)) ->
  branched_error_if V D Ob kind_of fill np_type env mode x (PyBool true) (PyInt z) msgs = ([], Return _ _ _ (poison V D Ob kind_of fill x)).
Proof.
  intros V D Ob kind_of fill np_type env mode x z msgs HF H. destruct (force_eq _ _ _ HF) as [E1 E2]. unfold branched_error_if, impl. rewrite E1, E2. cbn. rewrite nan_tree_arrays; [auto|].
  apply Forall_forall. intros t Ht. pose proof (leaves_are_Leaf x) as HL. rewrite Forall_forall in HL. destruct (HL _ Ht) as [[d vs|o] ->]; [auto|]. exfalso. eapply H. eauto.
Qed.
Print Assumptions C33_trace_nan_partial.
(** Any other leaf (a Python number, a function) makes it fail. *)
Theorem C33_trace_nan_fails : forall V D Ob kind_of fill np_type env mode (x : tree (leaf V D Ob)) z msgs o,
  in_force env mode "nan"%string -> In (Leaf (Obj V D Ob o)) (leaves no_leaf x) -> match np_type o with Some d => kind_of d <> OtherKind | None => True end ->
  exists e, branched_error_if V D Ob kind_of fill np_type env mode x (PyBool true) (PyInt z) msgs = ([], Raises _ _ _ e).
Proof.
  intros V D Ob kind_of fill np_type env mode x z msgs o HF HI HO. destruct (force_eq _ _ _ HF) as [E1 E2]. unfold branched_error_if, impl. rewrite E1, E2. cbn. destruct (nan_tree_object V D Ob kind_of fill np_type x o HI HO) as [e ->]. eauto.
Qed.
Print Assumptions C33_trace_nan_fails.
(** Breakpoint mode while tracing: two breakpoints, and the result is filled with NaN. *)
Theorem C33_trace_breakpoint : forall V D Ob kind_of fill np_type env mode (x : tree (leaf V D Ob)) z msgs msg,
  in_force env mode "breakpoint"%string -> message msgs z msg ->
  let out := branched_error_if V D Ob kind_of fill np_type env mode x (PyBool true) (PyInt z) msgs in
  (has_array V D Ob x -> ~ has_odd V D Ob kind_of x -> out = ([TraceBreak msg; RunBreak msg], Return _ _ _ (poison V D Ob kind_of fill x))) /\
  (has_odd V D Ob kind_of x -> out = ([TraceBreak msg; RunBreak msg], CallbackFails _ _ _)) /\
  (~ has_array V D Ob x -> out = ([TraceBreak msg], Raises _ _ _ ValueError)).
Proof.
  intros V D Ob kind_of fill np_type env mode x z msgs msg HF HM out. destruct (force_eq _ _ _ HF) as [E1 E2]. apply py_index_spec in HM. unfold out, branched_error_if, impl. rewrite E1, E2. cbn [pred_value index_value andb negb].
  assert (Q : (String.eqb "breakpoint" "raise" = false /\ String.eqb "breakpoint" "breakpoint" = true)%string) by auto. destruct Q as [-> ->]. rewrite HM. split; [|split]; intros H; [intros HO; rewrite (runtime_break _ _ _ _ _ _ _ _ _ msg H HO HM)|rewrite (runtime_break_odd _ _ _ _ _ _ _ _ _ msg H HM)|rewrite runtime_none by auto]; auto.
Qed.
Print Assumptions C33_trace_breakpoint.
Theorem C33_unknown_mode : forall V D Ob kind_of fill np_type env mode (x : tree (leaf V D Ob)) p i msgs,
  ~ In mode ["default"; "raise"; "breakpoint"; "nan"]%string -> branched_error_if V D Ob kind_of fill np_type env mode x p i msgs = ([], Raises _ _ _ RuntimeError).
Proof.
  intros V D Ob kind_of fill np_type env mode x p i msgs H. unfold branched_error_if, impl, valid_mode. cbn in H.
  repeat match goal with |- context [String.eqb mode ?s] => destruct (String.eqb_spec mode s) as [->|]; [exfalso; apply H; tauto|] end. auto.
Qed.
Print Assumptions C33_unknown_mode.
(** error_if is the one-message case; assert_dce fires exactly under jit. *)
Theorem C33_error_if : forall V D Ob kind_of fill np_type env mode (x : tree (leaf V D Ob)) p msg,
  (in_force env mode "raise"%string -> fires p -> has_array V D Ob x ->
     error_if V D Ob kind_of fill np_type env mode x p msg = ([], TraceError _ _ _ msg) \/ error_if V D Ob kind_of fill np_type env mode x p msg = ([], RunError _ _ _ msg)) /\
  (forall m, in_force env mode m -> ~ fires p -> has_array V D Ob x -> error_if V D Ob kind_of fill np_type env mode x p msg = ([], Return _ _ _ x)) /\
  assert_dce V D Ob kind_of fill np_type env mode false x msg = ([], Return _ _ _ x) /\
  (in_force env mode "raise"%string -> has_array V D Ob x -> assert_dce V D Ob kind_of fill np_type env mode true x msg = ([], RunError _ _ _ msg)).
Proof.
  intros V D Ob kind_of fill np_type env mode x p msg. assert (HM : message [msg] 0 msg) by (exists 0; auto). unfold assert_dce, error_if. split; [|split; [|split; [auto|]]].
  - intros HF HP HA. destruct p as [b|bs].
    + apply fires_eq in HP. cbn in HP. subst. left. apply (proj1 (C33_trace_raise V D Ob kind_of fill np_type env mode x 0 [msg] HF)); auto.
    + right. eapply (C33_run V D Ob kind_of fill np_type env mode "raise"%string x (BoolArr bs) (PyInt 0) 0 [msg] msg); auto; [left; auto|intros [[b H] _]; discriminate].
  - intros m HF HP HA. eapply (C33_quiet V D Ob kind_of fill np_type env mode m x p (PyInt 0) 0 [msg]); auto. left. auto.
  - intros HF HA. eapply (C33_run V D Ob kind_of fill np_type env mode "raise"%string x (BoolArr [true]) (PyInt 0) 0 [msg] msg); auto; [right; exists [true]; cbn; auto|left; auto|intros [[b H] _]; discriminate].
Qed.
Print Assumptions C33_error_if.

(** *** Witnesses: float and integer arrays, Python floats and functions. *)
Definition kd (d : bool) : kind := if d then Inexact else Integer.
Definition bei := branched_error_if Z bool bool kd (fun d => if d then (-1)%Z else 2147483647%Z) (fun o => if o then Some true else None).
Definition fl vs : tree (leaf Z bool bool) := Leaf (Arr Z bool bool true vs).
Definition pyfloat : tree (leaf Z bool bool) := Leaf (Obj Z bool bool true).
Example C33_ex :
  bei "raise" "default" (Node 0 [fl [3%Z; 4%Z]; pyfloat]) (BoolArr [false; true]) (IntArr [1%Z; 0%Z]) ["a"; "b"]%string = ([], RunError _ _ _ "b"%string) /\
  bei "raise" "nan" (Node 0 [fl [3%Z; 4%Z]; pyfloat]) (BoolArr [false; true]) (PyInt 0) ["a"]%string = ([], Return _ _ _ (Node 0 [fl [(-1)%Z; (-1)%Z]; pyfloat])) /\
  bei "nan" "raise" (Node 0 [fl [3%Z; 4%Z]; pyfloat]) (PyBool true) (PyInt (-1)) ["a"; "b"]%string = ([], TraceError _ _ _ "b"%string).
Proof. split; [|split]; reflexivity. Qed.
(** Under vmap the message need not belong to an element that failed. *)
Theorem C33_batch_message_refuted : exists (ps : list bool) (is : list Z) msgs m,
  bei "raise" "raise" (fl [0%Z; 0%Z]) (BoolArr ps) (IntArr is) msgs = ([], RunError _ _ _ m) /\
  forall k, nth_error ps k = Some true -> exists z, nth_error is k = Some z /\ ~ message msgs z m.
Proof.
  exists [true; false], [0%Z; 1%Z], ["a"; "b"]%string, "b"%string. split; [reflexivity|]. intros [|[|[|k]]] H; try discriminate. exists 0%Z. split; [auto|]. intros (n & H1 & [H2|[H2 _]]); [|discriminate]. replace n with 0 in H1 by lia. discriminate.
Qed.
Print Assumptions C33_batch_message_refuted.
(** NaN mode with a Python True and a Python number in [x] raises AttributeError. *)
Theorem C33_trace_nan_refuted : bei "nan" "default" (Node 0 [fl [3%Z]; pyfloat]) (PyBool true) (PyInt 0) ["a"]%string = ([], Raises _ _ _ AttributeError) /\
  bei "nan" "default" (Node 0 [fl [3%Z]; pyfloat]) (BoolArr [true]) (PyInt 0) ["a"]%string = ([], Return _ _ _ (Node 0 [fl [(-1)%Z]; pyfloat])).
Proof. split; reflexivity. Qed.
Print Assumptions C33_trace_nan_refuted.
(** A pytree without arrays is accepted if the predicate is a Python False. *)
Theorem C33_no_arrays_refuted : bei "raise" "default" pyfloat (PyBool false) (PyInt 7) []%string = ([], Return _ _ _ pyfloat) /\
  bei "raise" "default" pyfloat (BoolArr [false]) (PyInt 7) []%string = ([], Raises _ _ _ ValueError).
Proof. split; reflexivity. Qed.
Print Assumptions C33_no_arrays_refuted.
(** An array that numpy calls neither inexact nor integer nor boolean (bfloat16) is not replaced in NaN
    mode: the error passes unnoticed; in breakpoint mode the callback fails after the breakpoint. *)
Definition bei_odd := branched_error_if Z bool bool (fun d => if d then OtherKind else Inexact) (fun _ => (-1)%Z) (fun _ => None).
Theorem C33_dtype_refuted :
  bei_odd "nan" "default" (fl [3%Z]) (BoolArr [true]) (PyInt 0) ["a"]%string = ([], Return _ _ _ (fl [3%Z])) /\
  bei_odd "nan" "default" (fl [3%Z]) (PyBool true) (PyInt 0) ["a"]%string = ([], Return _ _ _ (fl [3%Z])) /\
  bei_odd "breakpoint" "default" (fl [3%Z]) (BoolArr [true]) (PyInt 0) ["a"]%string = ([RunBreak "a"%string], CallbackFails _ _ _).
Proof. split; [|split]; reflexivity. Qed.
Print Assumptions C33_dtype_refuted.
