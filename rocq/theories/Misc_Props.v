(** C49: order of execution of [scan_trick]. C52: [GetKey] never repeats. *)
From Verif Require Import Misc_Model.

(** ** C49 *)

(** [fn], then each intermediate followed by [fn]. *)
Fixpoint interleaved {X} (fn : X -> X) (is : list (X -> X)) (x : X) : X :=
  match is with
  | [] => fn x
  | i :: is' => interleaved fn is' (i (fn x))
  end.

Lemma scan_from {X} (fn : X -> X) is : forall pre x,
  fold_left (fun c s => lax_switch s (pre ++ is ++ [fun x => x]) (fn c))
    (seq (length pre) (length is + 1)) x = interleaved fn is x.
Proof.
  induction is as [|i is IH]; intros pre x; simpl.
  - unfold lax_switch. rewrite app_length; simpl.
    replace (Nat.min (length pre) (length pre + 1 - 1)) with (length pre) by lia.
    rewrite app_nth2, Nat.sub_diag by lia. reflexivity.
  - specialize (IH (pre ++ [i]) (i (fn x))).
    rewrite app_length, <- app_assoc in IH; simpl in IH. rewrite Nat.add_1_r in IH.
    rewrite <- IH. f_equal. unfold lax_switch. rewrite app_length; simpl.
    replace (Nat.min (length pre) _) with (length pre) by lia.
    rewrite app_nth2, Nat.sub_diag by lia. reflexivity.
Qed.

Theorem C49_scan_trick {X} (fn : X -> X) is x : scan_trick fn is x = interleaved fn is x.
Proof.
  unfold scan_trick, lax_scan. rewrite app_length. exact (scan_from fn is [] x).
Qed.
Print Assumptions C49_scan_trick.

(** Observed on a log of what ran: [fn] is number 0, intermediate [i] is number [i+1]. *)
Fixpoint order (n i : nat) : list nat :=
  match n with O => [0] | S n' => 0 :: S i :: order n' (S i) end.

Theorem C49_order n :
  let say k log := log ++ [k] in
  scan_trick (say 0) (map (fun i => say (S i)) (seq 0 n)) [] = order n 0.
Proof.
  cbn zeta. rewrite C49_scan_trick.
  assert (H : forall n i log,
    interleaved (fun log => log ++ [0]) (map (fun i log => log ++ [S i]) (seq i n)) log = log ++ order n i).
  { clear n. induction n as [|n IH]; intros i log; simpl; [reflexivity|].
    rewrite IH, <- !app_assoc. reflexivity. }
  exact (H n 0 []).
Qed.
Print Assumptions C49_order.

Example scan_example : scan_trick (fun x => x * 2) [fun x => x + 1; fun x => x + 10] 3 = 48.
Proof. reflexivity. Qed.

(** ** C52 *)
Section GetKeyProps.
  Context {Key : Type} (prng_key : Z -> Key) (fold_in : Key -> Z -> Key) (to_u32 : Z -> res Z).
  Hypothesis u32_in_range : forall z, (0 <= z < 2 ^ 32)%Z -> to_u32 z = Ok z.

  (** Seeds of the objects made in [h], in order, and number of calls of object [id]. *)
  Definition seeds (h : list gevent) : list Z :=
    concat (map (fun e => match e with GNew s => [s] | _ => [] end) h).
  (** [calls h id] counts only calls made after the object exists. *)
  Fixpoint calls_from (made : nat) (h : list gevent) (id : nat) : nat :=
    match h with
    | [] => 0
    | GNew _ :: h' => calls_from (S made) h' id
    | GCall j :: h' => (if Nat.eqb j id && Nat.ltb id made then 1 else 0) + calls_from made h' id
    end.
  Definition calls (h : list gevent) (id : nat) : nat := calls_from 0 h id.

  Definition indexed (st : list (@getkey Key)) (s : list Z) (n : nat -> nat) : Prop :=
    length st = length s /\
    forall id seed, nth_error s id = Some seed ->
      nth_error st id = Some (mk_getkey seed (Z.of_nat (n id)) (prng_key seed)).

  Lemma set_nth_length {X} (l : list X) i x : length (set_nth l i x) = length l.
  Proof. revert i; induction l; intros [|i]; simpl; auto. Qed.
  Lemma set_nth_eq {X} (l : list X) : forall i x, i < length l -> nth_error (set_nth l i x) i = Some x.
  Proof. induction l; intros [|i] x H; simpl in *; try lia; auto. apply IHl; lia. Qed.
  Lemma set_nth_neq {X} (l : list X) : forall i j x, i <> j -> nth_error (set_nth l i x) j = nth_error l j.
  Proof. induction l; intros [|i] [|j] x H; simpl in *; auto; try congruence. Qed.

  Lemma gafter_spec h : forall st s n,
    indexed st s n ->
    indexed (fold_left (gstep prng_key fold_in to_u32) h st) (s ++ seeds h)
            (fun id => n id + calls_from (length s) h id) \/ exists id, length s <= id /\ n id <> 0.
  Proof.
    induction h as [|e h IH]; intros st s n [HL HI]; simpl.
    - left. rewrite app_nil_r. split; [exact HL|]. intros id seed H. rewrite Nat.add_0_r. auto.
    - destruct e as [seed|j]; simpl.
      + destruct (Nat.eq_dec (n (length s)) 0) as [H0|H0]; [|right; exists (length s); split; [lia|exact H0]].
        destruct (IH (st ++ [new_getkey prng_key seed]) (s ++ [seed]) n) as [H|(id & Hid & Hn)].
        * split; [rewrite !app_length; simpl; lia|].
          intros id seed' H. destruct (Nat.lt_ge_cases id (length s)) as [Hlt|Hge].
          -- rewrite nth_error_app1 in H by lia. rewrite nth_error_app1 by lia. auto.
          -- rewrite nth_error_app2 in H by lia. rewrite nth_error_app2 by lia. rewrite HL.
             destruct (id - length s) as [|m] eqn:E; [|destruct m; discriminate].
             simpl in *. injection H as <-. replace id with (length s) by lia. rewrite H0. reflexivity.
        * left. rewrite app_length in H; simpl in H. rewrite Nat.add_1_r, <- app_assoc in H. exact H.
        * right. exists id. rewrite app_length in Hid; simpl in Hid. split; [lia|exact Hn].
      + destruct (Nat.lt_ge_cases j (length s)) as [Hlt|Hge].
        * destruct (nth_error_ge_ex s j Hlt) as [seed Hs]. pose proof (HI j seed Hs) as Hst. rewrite Hst.
          destruct (IH (set_nth st j (snd (getkey_call fold_in to_u32
                     (mk_getkey seed (Z.of_nat (n j)) (prng_key seed))))) s
                     (fun id => n id + if Nat.eqb j id then 1 else 0)) as [H|(id & Hid & Hn)].
          -- split; [rewrite set_nth_length; exact HL|].
             intros id seed' H. destruct (Nat.eqb_spec j id) as [<-|Hne].
             ++ rewrite set_nth_eq by lia. simpl. rewrite Hs in H. injection H as <-. do 2 f_equal. lia.
             ++ rewrite set_nth_neq by exact Hne. rewrite Nat.add_0_r. auto.
          -- left. destruct H as [H1 H2]. split; [exact H1|]. intros id seed' H.
             specialize (H2 id seed' H). simpl in H2 |- *. rewrite H2. do 3 f_equal.
             destruct (Nat.eqb_spec j id) as [<-|]; simpl; [|lia].
             destruct (Nat.ltb_spec j (length s)); simpl; lia.
          -- right. exists id. split; [exact Hid|].
             destruct (Nat.eqb_spec j id); [lia|]. lia.
        * assert (En : nth_error st j = None) by (apply nth_error_None; lia). rewrite En.
          destruct (IH st s n) as [H|H]; [split; auto| |right; exact H].
          left. destruct H as [H1 H2]. split; [exact H1|]. intros id seed' H.
          rewrite (H2 id seed' H). do 3 f_equal.
          destruct (Nat.eqb_spec j id) as [<-|]; simpl; [|lia].
          destruct (Nat.ltb_spec j (length s)); simpl; lia.
  Qed.

  (** Whatever else happens, the [k]-th call of an object folds [k] into the key of its own
      seed. *)
  Theorem C52_index h id seed :
    nth_error (seeds h) id = Some seed ->
    (Z.of_nat (calls h id) + 1 < 2 ^ 32)%Z ->
    gresult prng_key fold_in to_u32 h id
    = Some (Ok (fold_in (prng_key seed) (Z.of_nat (calls h id) + 1))).
  Proof.
    intros Hs Hr. destruct (gafter_spec h [] [] (fun _ => 0)) as [[_ H]|(j & _ & Hj)].
    - split; [reflexivity|]. intros [|id'] s H; discriminate.
    - specialize (H id seed Hs). unfold gresult, gafter. rewrite H. simpl.
      unfold calls in *. rewrite u32_in_range by lia. reflexivity.
    - lia.
  Qed.

  (** Hence two different calls of one object, fewer than 2^32 in number, never fold in the
      same index: [h] and [h ++ GCall id :: h'] are the histories before either call. *)
  Lemma calls_mono made h h' id : calls_from made h id <= calls_from made (h ++ h') id.
  Proof.
    revert made; induction h as [|[s|j] h IH]; intros made; simpl; [lia|apply IH|].
    specialize (IH made). lia.
  Qed.

  Lemma calls_app made h h' id :
    calls_from made (h ++ h') id = calls_from made h id + calls_from (made + length (seeds h)) h' id.
  Proof.
    revert made; induction h as [|[s|j] h IH]; intros made; simpl.
    - rewrite Nat.add_0_r. reflexivity.
    - rewrite IH. change (seeds (GNew s :: h)) with (s :: seeds h). simpl.
      rewrite Nat.add_succ_r. reflexivity.
    - rewrite IH. change (seeds (GCall j :: h)) with (seeds h). lia.
  Qed.

  Theorem C52_distinct h h' id seed :
    nth_error (seeds h) id = Some seed ->
    let i1 := (Z.of_nat (calls h id) + 1)%Z in
    let i2 := (Z.of_nat (calls (h ++ GCall id :: h') id) + 1)%Z in
    (i2 < 2 ^ 32)%Z ->
    i1 <> i2 /\
    gresult prng_key fold_in to_u32 h id = Some (Ok (fold_in (prng_key seed) i1)) /\
    gresult prng_key fold_in to_u32 (h ++ GCall id :: h') id = Some (Ok (fold_in (prng_key seed) i2)).
  Proof.
    intros Hs. cbn zeta. intros Hr.
    assert (Hlt : id < length (seeds h)) by (eapply nth_error_lt; exact Hs).
    assert (E : calls h id < calls (h ++ GCall id :: h') id).
    { unfold calls. rewrite calls_app. simpl calls_from. rewrite Nat.eqb_refl.
      destruct (Nat.ltb_spec id (length (seeds h))); simpl; lia. }
    split; [lia|]. split.
    - apply C52_index; [exact Hs|lia].
    - apply C52_index; [|exact Hr]. unfold seeds in *. rewrite map_app, concat_app.
      rewrite nth_error_app1 by exact Hlt. exact Hs.
  Qed.
End GetKeyProps.
Print Assumptions C52_index.
Print Assumptions C52_distinct.

(** Non-vacuity: two objects in alternation. *)
Example getkey_example :
  let u z := if (Z.leb 0 z && Z.ltb z (2 ^ 32))%bool then Ok z else Err ValueError in
  gresult (fun s => [s]) (fun k i => k ++ [i]) u [GNew 5%Z; GNew 6%Z; GCall 0; GCall 1; GCall 0] 0
  = Some (Ok [5%Z; 3%Z]).
Proof. reflexivity. Qed.
