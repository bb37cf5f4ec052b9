(** C41: Dropout. *)
From Verif Require Import Dropout_Model.
Local Open Scope list_scope.

(** The flag in force: [deterministic] argument, else [inference] argument, else the attribute. *)
Inductive flag (d : dropout) : option bool -> option bool -> bool -> Prop :=
| FL_det inf b : flag d inf (Some b) b
| FL_inf b : flag d (Some b) None b
| FL_attr : flag d None None (inference d).
Definition no_drop (d : dropout) : Prop := exists q, p d = PyNum q /\ (q == 0)%Q.
(** [jrandom.bernoulli]: one draw per entry, certain for probabilities 0 and 1. *)
Definition bernoulli_ok {Key} (bernoulli : Key -> Q -> nat -> list bool) : Prop :=
  (forall k q n, length (bernoulli k q n) = n) /\
  (forall k q n b, (q == 0)%Q -> In b (bernoulli k q n) -> b = false) /\ (forall k q n b, (q == 1)%Q -> In b (bernoulli k q n) -> b = true).

Lemma flag_value d inf det b : flag d inf det b -> match (match det with Some b => Some b | None => inf end) with Some b => b | None => inference d end = b.
Proof. intros []; auto. Qed.
Lemma no_drop_dec d inf : match p d with PyNum q => if Qeq_bool q 0 then true else inf | ArrNum _ => inf end = inf \/ no_drop d.
Proof. destruct (p d) as [q|q] eqn:E; [|auto]. destruct (Qeq_bool q 0) eqn:Q; [|auto]. right. exists q. split; [auto|apply Qeq_bool_iff; auto]. Qed.

(** Identity, with or without a key, exactly in inference mode or if nothing is to be dropped. *)
Theorem C41_inference : forall Key bernoulli d x (key : option Key) inf det b, flag d inf det b -> b = true \/ no_drop d ->
  call Key bernoulli d x key inf det = Ok x.
Proof.
  intros Key bernoulli d x key inf det b HF HB. unfold call. rewrite (flag_value _ _ _ _ HF). destruct (p d) as [q|q] eqn:E.
  - destruct (Qeq_bool q 0) eqn:Q; [auto|]. destruct HB as [->|(q' & H & H0)]; [auto|]. rewrite E in H. injection H as <-. apply Qeq_bool_iff in H0. congruence.
  - destruct HB as [->|(q' & H & H0)]; [auto|congruence].
Qed.
Print Assumptions C41_inference.
Theorem C41_training : forall Key bernoulli d x (key : option Key) inf det, flag d inf det false -> ~ no_drop d ->
  (key = None -> call Key bernoulli d x key inf det = Err RuntimeError) /\
  (forall k, bernoulli_ok bernoulli -> key = Some k -> exists y, call Key bernoulli d x key inf det = Ok y /\ length y = length x /\
     forall i v w, nth_error x i = Some v -> nth_error y i = Some w -> exists b, nth_error (bernoulli k (1 - value (p d))%Q (length x)) i = Some b /\ w = if b then (v / (1 - value (p d)))%Q else 0%Q).
Proof.
  intros Key bernoulli d x key inf det HF HN. unfold call. rewrite (flag_value _ _ _ _ HF). destruct (no_drop_dec d false) as [->|H]; [|contradiction]. split; [intros ->; auto|]. intros k HB ->. eexists. split; [reflexivity|].
  set (q := (1 - value (p d))%Q). pose proof (proj1 HB k q (length x)) as HL. set (m := bernoulli k q (length x)) in *. clearbody m. split.
  - clear - HL. revert x HL. induction m as [|b m IH]; intros [|v x] H; try discriminate; cbn; auto.
  - clear - HL. revert x HL. induction m as [|b m IH]; intros [|v x] H i u w; try discriminate; [destruct i; discriminate|]. destruct i as [|i]; cbn; [|apply IH; auto]. intros E1 E2. injection E1 as ->. injection E2 as <-. eauto.
Qed.
Print Assumptions C41_training.
(** Probability 0 given as an array keeps everything, probability 1 drops everything. *)
Theorem C41_certain : forall Key bernoulli d x (k : Key) inf det, bernoulli_ok bernoulli -> flag d inf det false -> ~ no_drop d ->
  ((value (p d) == 1)%Q -> call Key bernoulli d x (Some k) inf det = Ok (map (fun _ => 0%Q) x)) /\
  ((value (p d) == 0)%Q -> exists y, call Key bernoulli d x (Some k) inf det = Ok y /\ Forall2 Qeq x y).
Proof.
  intros Key bernoulli d x k inf det (HL & H0 & H1) HF HN. unfold call. rewrite (flag_value _ _ _ _ HF). destruct (no_drop_dec d false) as [->|H]; [|contradiction].
  set (q := (1 - value (p d))%Q). specialize (HL k q (length x)). specialize (H0 k q (length x)). specialize (H1 k q (length x)). set (m := bernoulli k q (length x)) in *. clearbody m. split.
  - intros E. assert (Eq : (q == 0)%Q) by (unfold q; rewrite E; ring). specialize (fun b => H0 b Eq). clear - HL H0. f_equal. revert x HL. induction m as [|b m IH]; intros [|v x] HL; try discriminate; [auto|]. cbn [select map]. rewrite (H0 b (or_introl eq_refl)). f_equal. apply IH; [|auto]. intros b' Hb. apply H0. right. auto.
  - intros E. assert (Eq : (q == 1)%Q) by (unfold q; rewrite E; ring). specialize (fun b => H1 b Eq). clearbody q. clear - HL H1 Eq. eexists. split; [reflexivity|]. revert x HL. induction m as [|b m IH]; intros [|v x] HL; try discriminate; [constructor|]. cbn [select]. rewrite (H1 b (or_introl eq_refl)). constructor; [rewrite Eq; field|]. apply IH; [|auto]. intros b' Hb. apply H1. right. auto.
Qed.
Print Assumptions C41_certain.
(** Rescaling makes the mean over the two outcomes, weighted by their probabilities, the entry itself. *)
Theorem C41_unbiased : forall q v : Q, ~ (1 - q == 0)%Q ->
  (forall b y, select [b] [v] (1 - q) = y -> y = [if b then v / (1 - q) else 0])%Q /\ ((1 - q) * (v / (1 - q)) + q * 0 == v)%Q.
Proof. intros q v H. split; [intros b y <-; auto|field; auto]. Qed.
Print Assumptions C41_unbiased.
Theorem C41_constructor : forall p0 inf det, p (make p0 inf det) = p0 /\ inference (make p0 inf det) = match det with Some d => d | None => inf end.
Proof. auto. Qed.
Print Assumptions C41_constructor.
(** The first [k] entries kept. *)
Definition demo (k : nat) (q : Q) (n : nat) : list bool := map (fun i => if Qeq_bool q 0 then false else if Qeq_bool q 1 then true else Nat.ltb i k) (seq 0 n).
Example C41_ex : bernoulli_ok demo /\
  call nat demo (make (PyNum (1 # 2)) false None) [1; 2; 3]%Q (Some 1%nat) None None = Ok [1 / (1 - (1 # 2)); 0; 0]%Q /\
  call nat demo (make (PyNum (1 # 2)) false None) [1; 2; 3]%Q None (Some true) (Some false) = Err RuntimeError /\
  call nat demo (make (PyNum 0) false None) [1; 2; 3]%Q None (Some false) None = Ok [1; 2; 3]%Q /\
  call nat demo (make (ArrNum 0) true (Some false)) [1; 2; 3]%Q None None None = Err RuntimeError.
Proof.
  split; [|repeat split]. split; [intros; unfold demo; rewrite map_length, seq_length; auto|]. split; intros k q n b E HI; apply in_map_iff in HI as (i & <- & _).
  - apply Qeq_bool_iff in E. rewrite E. auto.
  - destruct (Qeq_bool q 0) eqn:E0; [apply Qeq_bool_iff in E0; rewrite E0 in E; discriminate|]. apply Qeq_bool_iff in E. rewrite E. auto.
Qed.
