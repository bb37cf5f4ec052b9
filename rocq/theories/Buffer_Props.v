(** Properties C77 and C78: loop buffers (equinox/internal/_loop/common.py). *)
From Coq Require Import List Lia Ring ZArith.
From Verif Require Import Buffer_Model.
Import ListNotations.
Local Open Scope nat_scope.
Local Open Scope list_scope.

(** ** C77: batching *)
(** Element [b] of a batch along axis [k]; values that are not batched are the same for all elements. *)
Definition lane {T} (k : option nat) (b : nat) (a : list nat -> T) : list nat -> T :=
  fun i => a (match k with Some k => firstn k i ++ [b] ++ skipn k i | None => i end).
(** C77. Every element of the batch is what [lax.select] gives for it if the predicate is batched, and [x] otherwise. *)
Theorem C77_batch : forall V (pred : arr bool) (x y : arr V) bp bx by_ o oax, select_batch V pred x y bp bx by_ = (o, oax) ->
  forall b i, lane oax b (run_batched V o) i =
    match bp with
    | Some _ => if lane bp b pred [] then lane bx b x i else lane by_ b y i
    | None => lane bx b x i
    end.
Proof.
  intros V pred x y bp bx by_ o oax H b i. unfold select_batch in H.
  destruct bp as [ kp | ]; [ | destruct bx, by_ ]; injection H as <- <-; try reflexivity.
  destruct bx, by_; reflexivity.
Qed.
Print Assumptions C77_batch.
(** C77. So under [vmap] it is [lax.select] elementwise, if predicates are true whenever they are not batched. *)
Theorem C77_batch_select : forall V (pred : arr bool) (x y : arr V) bp bx by_ o oax, select_batch V pred x y bp bx by_ = (o, oax) ->
  (bp = None -> pred [] = true) ->
  forall b i, lane oax b (run_batched V o) i = if lane bp b pred [] then lane bx b x i else lane by_ b y i.
Proof.
  intros V pred x y bp bx by_ o oax H Hp b i. rewrite (C77_batch _ _ _ _ _ _ _ _ _ H). destruct bp; [ reflexivity | ].
  unfold lane at 2. now rewrite Hp.
Qed.
Print Assumptions C77_batch_select.

(** ** C77: derivatives, over any commutative ring *)
Section Ring.
  Variables (V : Type) (zero one : V) (add mul sub : V -> V -> V) (opp : V -> V).
  Hypothesis Vring : ring_theory zero one add mul sub opp eq.
  Add Ring Vr : Vring.
  Declare Scope V_scope.
  Notation "a + b" := (add a b) : V_scope.
  Notation "a * b" := (mul a b) : V_scope.
  Local Open Scope V_scope.
  Delimit Scope V_scope with V.

  Definition mat (t : option V) : V := match t with Some t => t | None => zero end.
  (** C77. The forward rule of [select_if_vmap]: values and tangents move together. *)
  Theorem C77_select_jvp : forall real pred x y tx ty e,
    let (out, t) := select_jvp V zero real pred x y tx ty in
    out = select_if_vmap real pred x y /\ select_if_vmap real pred (x + e * mat tx) (y + e * mat ty) = out + e * mat t.
  Proof.
    intros real pred x y tx ty e. unfold select_jvp. split; [ reflexivity | ]. unfold select_if_vmap, materialise.
    destruct real, pred, tx, ty; cbn [mat]; ring.
  Qed.
  (** C77. The transpose rule of [select_if_vmap] is the adjoint, in the arguments asked for. *)
  Theorem C77_select_transpose : forall real pred ct tx ty ux uy,
    (ux = false -> tx = zero) -> (uy = false -> ty = zero) ->
    let (cx, cy) := select_transpose V zero real pred ct ux uy in
    mat ct * select_if_vmap real pred tx ty = mat cx * tx + mat cy * ty /\
    (ux = false -> cx = None) /\ (uy = false -> cy = None).
  Proof.
    intros real pred ct tx ty ux uy Hx Hy. unfold select_transpose. destruct ct as [ ct | ]; [ | split; [ cbn [mat]; ring | auto ] ].
    split; [ | split; intros ->; reflexivity ]. destruct ux, uy; try rewrite (Hx eq_refl); try rewrite (Hy eq_refl); destruct real, pred; cbn [select_if_vmap mat]; ring.
  Qed.

  Fixpoint inner (u v : list V) : V := match u, v with x :: u', y :: v' => x * y + inner u' v' | _, _ => zero end.
  Definition shift (xs t : list V) (e : V) : list V := map (fun p => fst p + e * snd p) (List.combine xs t).
  Definition mats (n : nat) (t : option (list V)) : list V := match t with Some t => t | None => repeat zero n end.
  Lemma upd_length {A} (l : list A) i x : length (upd l i x) = length l.
  Proof. revert i. induction l; intros [ | i ]; cbn; auto. Qed.
  Lemma upd_nth {A} (l : list A) i x d j : j < length l -> nth j (upd l i x) d = if Nat.eqb j i then x else nth j l d.
  Proof.
    revert i j. induction l as [ | y l IH ]; intros [ | i ] [ | j ] H; cbn in *; try lia; try reflexivity.
    rewrite IH by lia. reflexivity.
  Qed.
  Lemma zeros_like_repeat (xs : list V) : zeros_like V zero xs = repeat zero (length xs).
  Proof. unfold zeros_like. induction xs; cbn; congruence. Qed.
  Lemma shift_nil_r xs e : shift xs (repeat zero (length xs)) e = xs.
  Proof. unfold shift. induction xs as [ | x xs IH ]; [ reflexivity | ]. cbn. rewrite IH. f_equal. ring. Qed.
  Lemma shift_nth xs t e j : length t = length xs -> j < length xs -> nth j (shift xs t e) zero = nth j xs zero + e * nth j t zero.
  Proof.
    revert t j. induction xs as [ | x xs IH ]; intros [ | y t ] [ | j ] Hl Hj; cbn in *; try lia; [ reflexivity | ]. apply IH; lia.
  Qed.
  Lemma shift_upd xs t e i a c : length t = length xs -> shift (upd xs i a) (upd t i c) e = upd (shift xs t e) i (a + e * c).
  Proof.
    revert t i. induction xs as [ | x xs IH ]; intros [ | y t ] [ | i ] H; try discriminate; try reflexivity.
    cbn. f_equal. apply IH. now injection H.
  Qed.
  Lemma nth_repeat_zero n j : nth j (repeat zero n) zero = zero.
  Proof. revert j. induction n; intros [ | j ]; cbn; auto. Qed.
  (** C77. The forward rule of buffer writes. *)
  Theorem C77_set_jvp : forall real pred xs i x t_xs t_x e, i < length xs -> length (mats (length xs) t_xs) = length xs ->
    let (out, t) := maybe_set_jvp V zero real pred xs i x t_xs t_x in
    out = maybe_set V zero real pred xs i x /\
    maybe_set V zero real pred (shift xs (mats (length xs) t_xs) e) i (x + e * mat t_x) = shift out (mats (length xs) t) e.
  Proof.
    intros real pred xs i x t_xs t_x e Hi Hl. unfold maybe_set_jvp. split; [ reflexivity | ].
    assert (Hmain : forall T tx, length T = length xs ->
      maybe_set V zero real pred (shift xs T e) i (x + e * tx) = shift (maybe_set V zero real pred xs i x) (maybe_set V zero real pred T i tx) e).
    { intros T tx HT. unfold maybe_set. rewrite shift_upd by exact HT. f_equal. rewrite shift_nth by auto.
      unfold select_if_vmap. destruct real, pred; reflexivity. }
    destruct t_xs as [ T | ]; [ destruct t_x as [ tx | ] | destruct t_x as [ tx | ] ]; cbn [mats mat materialise] in *.
    - now apply Hmain.
    - rewrite <- Hmain by exact Hl. reflexivity.
    - rewrite zeros_like_repeat. rewrite <- Hmain by exact Hl. reflexivity.
    - assert (E : shift xs (repeat zero (length xs)) e = xs) by apply shift_nil_r. rewrite E.
      replace (length xs) with (length (maybe_set V zero real pred xs i x)) by (unfold maybe_set; apply upd_length).
      rewrite shift_nil_r. f_equal. ring.
  Qed.

  Lemma inner_upd c l i a : i < length l -> length c = length l -> inner c (upd l i a) = inner c l + nth i c zero * (sub a (nth i l zero)).
  Proof.
    revert c i. induction l as [ | y l IH ]; intros [ | x c ] [ | i ] Hi Hl; cbn in *; try lia.
    - ring.
    - rewrite IH by lia. ring.
  Qed.
  (** C77. The transpose rule of buffer writes: nothing for what is not asked for, and together the adjoint on buffers that are zero where they are
      written to. *)
  Theorem C77_set_transpose : forall real pred ct xs i x uxs ux, i < length xs -> length (mats (length xs) ct) = length xs ->
    (uxs = false -> xs = repeat zero (length xs)) -> (ux = false -> x = zero) -> nth i xs zero = zero ->
    let (cxs, cx) := maybe_set_transpose V zero real pred ct i uxs ux in
    inner (mats (length xs) ct) (maybe_set V zero real pred xs i x) = inner (mats (length xs) cxs) xs + mat cx * x /\
    (uxs = true -> cxs = ct) /\ (uxs = false -> cxs = None) /\ (ux = false -> cx = None).
  Proof.
    intros real pred ct xs i x uxs ux Hi Hl Hxs Hx H0. unfold maybe_set_transpose. split; [ | split; [ intros ->; reflexivity | split; intros ->; reflexivity ] ].
    assert (Z : forall l, inner l (repeat zero (length xs)) = zero).
    { generalize (length xs). intros n l. revert n. induction l as [ | y l IH ]; intros [ | n ]; cbn; try reflexivity. rewrite IH. ring. }
    assert (Z' : forall l, inner (repeat zero (length xs)) l = zero).
    { generalize (length xs). intros n l. revert n. induction l as [ | y l IH ]; intros [ | n ]; cbn; try reflexivity. rewrite IH. ring. }
    assert (E : inner (mats (length xs) (if uxs then ct else None)) xs = inner (mats (length xs) ct) xs).
    { destruct uxs; [ reflexivity | ]. rewrite (Hxs eq_refl) at 2 4. rewrite !Z. reflexivity. }
    rewrite E. clear E. unfold maybe_set. rewrite inner_upd by (auto; lia). rewrite H0.
    destruct ux.
    - destruct ct as [ ct | ]; cbn [mats mat]; [ | rewrite nth_repeat_zero; ring ]. unfold select_if_vmap. destruct real, pred; cbn [mat]; ring.
    - rewrite (Hx eq_refl). unfold select_if_vmap. destruct real, pred; cbn [mat]; ring.
  Qed.

  (** ** C77: the backward pass over a buffer *)
  Notation instr := (instr V).
  (** Locations actually written to. *)
  Fixpoint written (p : list instr) : list nat :=
    match p with
    | [] => []
    | Write _ real pred i _ :: p => if negb real || pred then i :: written p else written p
    | _ :: p => written p
    end.
  (** Indices are in range: [m] numbers, a buffer of [n] entries. *)
  Fixpoint in_range (m n : nat) (p : list instr) : Prop :=
    match p with
    | [] => True
    | Read _ j :: p => j < n /\ in_range (S m) n p
    | Lin _ c :: p => length c = m /\ in_range (S m) n p
    | Write _ _ _ i k :: p => i < n /\ k < m /\ in_range m n p
    end.
  Lemma inner_comm u v : inner u v = inner v u.
  Proof. revert v. induction u as [ | x u IH ]; intros [ | y v ]; cbn; try reflexivity. rewrite IH. ring. Qed.
  Lemma inner_dot u v : dot V zero add mul u v = inner u v.
  Proof. reflexivity. Qed.
  Lemma inner_add_at c i x l : i < length c -> length c = length l -> inner (add_at V zero add c i x) l = inner c l + x * nth i l zero.
  Proof. intros Hi Hl. unfold add_at. rewrite inner_comm, inner_upd by lia. rewrite (inner_comm l c). ring. Qed.
  Lemma add_scaled_cons a l b c x : add_scaled V zero add mul (a :: l) (b :: c) x = (a + b * x) :: add_scaled V zero add mul l c x.
  Proof. unfold add_scaled. cbn [length seq map nth]. rewrite <- seq_shift, map_map. reflexivity. Qed.
  Lemma inner_add_scaled l c x env : length c = length l -> length env = length l ->
    inner (add_scaled V zero add mul l c x) env = inner l env + x * inner c env.
  Proof.
    revert c env. induction l as [ | a l IH ]; intros [ | b c ] [ | y env ] Hc He; cbn in Hc, He; try discriminate.
    - cbn. ring.
    - rewrite add_scaled_cons. cbn [inner]. rewrite IH by lia. ring.
  Qed.
  Lemma add_scaled_length l c x : length (add_scaled V zero add mul l c x) = length l.
  Proof. unfold add_scaled. now rewrite map_length, seq_length. Qed.

  Lemma adjoint_lengths : forall p m n ce cb, in_range m n p ->
    length ce = (m + length (List.filter (fun o => match o with Write _ _ _ _ _ => false | _ => true end) p))%nat -> length cb = n ->
    length (fst (backward V zero add mul p (ce, cb))) = m /\ length (snd (backward V zero add mul p (ce, cb))) = n.
  Proof.
    induction p as [ | o p IH ]; intros m n ce cb Hr Hce Hcb; [ cbn in *; split; [ lia | assumption ] | ].
    cbn [backward fold_right]. fold (backward V zero add mul p (ce, cb)).
    destruct o as [ j | c | real pred i k ]; cbn [in_range List.filter length] in *.
    - destruct Hr as [ Hj Hr ]. destruct (IH (S m) n ce cb Hr ltac:(lia) Hcb) as [ H1 H2 ].
      destruct (backward _ _ _ _ p (ce, cb)) as [ [ | e1 ce1 ] cb1 ]; cbn in *; [ lia | ]. unfold add_at. rewrite upd_length. lia.
    - destruct Hr as [ Hj Hr ]. destruct (IH (S m) n ce cb Hr ltac:(lia) Hcb) as [ H1 H2 ].
      destruct (backward _ _ _ _ p (ce, cb)) as [ [ | e1 ce1 ] cb1 ]; cbn in *; [ lia | ]. rewrite add_scaled_length. lia.
    - destruct Hr as (Hi & Hk & Hr). destruct (IH m n ce cb Hr ltac:(lia) Hcb) as [ H1 H2 ].
      destruct (backward _ _ _ _ p (ce, cb)) as [ ce1 cb1 ]; cbn in *. unfold add_at. rewrite upd_length. lia.
  Qed.

  (** C77. The backward pass gives the adjoint of a program over a buffer, though writes pass on the buffer's cotangent without placing a zero: if
      every location is written to at most once, and the buffer did not depend on anything at locations that get written to. *)
  Theorem C77_backward_exact : forall p env b ce cb,
    in_range (length env) (length b) p -> NoDup (written p) -> (forall j, In j (written p) -> nth j b zero = zero) ->
    let (env', b') := forward V zero add mul p (env, b) in
    length ce = length env' -> length cb = length b' ->
    let (ce0, cb0) := backward V zero add mul p (ce, cb) in
    length ce0 = length env /\ length cb0 = length b /\
    inner ce env' + inner cb b' = inner ce0 env + inner cb0 b.
  Proof.
    assert (Hlen : forall p env b, length (fst (forward V zero add mul p (env, b))) =
              (length env + length (List.filter (fun o => match o with Write _ _ _ _ _ => false | _ => true end) p))%nat /\
              length (snd (forward V zero add mul p (env, b))) = length b).
    { induction p as [ | o p IH ]; intros env b; [ cbn; split; [ lia | reflexivity ] | ]. unfold forward in *. cbn [fold_left].
      destruct o as [ j | c | real pred i k ]; cbn [forward1 List.filter length].
      - destruct (IH (nth j b zero :: env) b) as [ -> -> ]. cbn [length]. lia.
      - destruct (IH (dot V zero add mul c env :: env) b) as [ -> -> ]. cbn [length]. lia.
      - destruct (IH env (maybe_set V zero real pred b i (nth k env zero))) as [ -> -> ]. unfold maybe_set. rewrite upd_length. lia. }
    intros p env b ce cb Hr Hnd Hz.
    destruct (forward V zero add mul p (env, b)) as [ env' b' ] eqn:Ef. intros Hce Hcb.
    pose proof (Hlen p env b) as [ L1 L2 ]. rewrite Ef in L1, L2. cbn [fst snd] in L1, L2.
    destruct (backward V zero add mul p (ce, cb)) as [ ce0 cb0 ] eqn:Eb.
    pose proof (adjoint_lengths p (length env) (length b) ce cb Hr ltac:(lia) ltac:(lia)) as [ L3 L4 ]. rewrite Eb in L3, L4. cbn [fst snd] in L3, L4.
    split; [ exact L3 | ]. split; [ exact L4 | ].
    assert (Hcb' : length cb = length b) by lia. assert (Hce' : length ce = (length env + length (List.filter (fun o => match o with Write _ _ _ _ _ => false | _ => true end) p))%nat) by lia.
    clear L1 L2 L3 L4 Hce Hcb.
    revert env b env' b' ce0 cb0 Hr Hnd Hz Ef Eb Hcb' Hce'. induction p as [ | o p IH ]; intros env b env' b' ce0 cb0 Hr Hnd Hz Ef Eb Hcb' Hce'.
    - cbn in Ef, Eb. injection Ef as <- <-. injection Eb as <- <-. reflexivity.
    - unfold forward in Ef. cbn [fold_left] in Ef. fold (forward V zero add mul p (forward1 V zero add mul o (env, b))) in Ef.
      cbn [backward fold_right] in Eb. fold (backward V zero add mul p (ce, cb)) in Eb.
      destruct (backward V zero add mul p (ce, cb)) as [ ce1 cb1 ] eqn:Eb1.
      destruct o as [ j | c | real pred i k ]; cbn [in_range written forward1 List.filter length] in *.
      + destruct Hr as [ Hj Hr ].
        pose proof (adjoint_lengths p (S (length env)) (length b) ce cb Hr ltac:(lia) Hcb') as [ L3 L4 ]. rewrite Eb1 in L3, L4. cbn [fst snd] in L3, L4.
        rewrite (IH (nth j b zero :: env) b env' b' ce1 cb1 Hr Hnd Hz Ef eq_refl Hcb' ltac:(cbn [length]; lia)).
        destruct ce1 as [ | e1 ce1 ]; [ discriminate | ]. cbn [backward1] in Eb. injection Eb as <- <-.
        rewrite inner_add_at by lia. cbn [inner]. ring.
      + destruct Hr as [ Hj Hr ].
        pose proof (adjoint_lengths p (S (length env)) (length b) ce cb Hr ltac:(lia) Hcb') as [ L3 L4 ]. rewrite Eb1 in L3, L4. cbn [fst snd] in L3, L4.
        rewrite (IH (dot V zero add mul c env :: env) b env' b' ce1 cb1 Hr Hnd Hz Ef eq_refl Hcb' ltac:(cbn [length]; lia)).
        destruct ce1 as [ | e1 ce1 ]; [ discriminate | ]. cbn [backward1] in Eb. injection Eb as <- <-. cbn [length] in L3.
        rewrite inner_add_scaled by lia. cbn [inner]. rewrite inner_dot. ring.
      + destruct Hr as (Hi & Hk & Hr).
        pose proof (adjoint_lengths p (length env) (length b) ce cb Hr ltac:(lia) Hcb') as [ L3 L4 ]. rewrite Eb1 in L3, L4. cbn [fst snd] in L3, L4.
        set (b1 := maybe_set V zero real pred b i (nth k env zero)) in *.
        assert (Hb1 : length b1 = length b) by (unfold b1, maybe_set; apply upd_length).
        cbn [backward1 maybe_set_transpose materialise] in Eb. injection Eb as <- <-.
        rewrite inner_add_at by lia.
        destruct (negb real || pred) eqn:Ed.
        * inversion Hnd as [ | ? ? Hni Hnd' ]; subst.
          assert (Hz1 : forall j, In j (written p) -> nth j b1 zero = zero).
          { intros j Hj. unfold b1, maybe_set. destruct (Nat.ltb_spec j (length b)) as [ Hlt | Hge ].
            - rewrite upd_nth by exact Hlt. destruct (Nat.eqb_spec j i) as [ -> | ]; [ contradiction | ]. apply Hz. now right.
            - apply nth_overflow. rewrite upd_length. exact Hge. }
          rewrite (IH env b1 env' b' ce1 cb1) by (rewrite ?Hb1; auto).
          unfold b1, maybe_set. rewrite inner_upd by lia. rewrite (Hz i (or_introl eq_refl)).
          destruct real, pred; try discriminate; cbn [select_if_vmap]; ring.
        * destruct real; [ | discriminate ]. destruct pred; [ discriminate | ].
          assert (Hb : b1 = b).
          { unfold b1, maybe_set. cbn [select_if_vmap]. apply nth_ext with (d := zero) (d' := zero); [ apply upd_length | ].
            intros j Hj. rewrite upd_length in Hj. rewrite upd_nth by exact Hj. destruct (Nat.eqb_spec j i); congruence. }
          rewrite Hb in *. rewrite (IH env b env' b' ce1 cb1) by auto. cbn [select_if_vmap]. ring.
  Qed.
End Ring.
Print Assumptions C77_select_jvp.
Print Assumptions C77_select_transpose.
Print Assumptions C77_set_jvp.
Print Assumptions C77_set_transpose.
Print Assumptions C77_backward_exact.

(** C77. Without either premise the gradient is wrong, as the documentation warns: a location written to twice gives both values the cotangent of the
    last one... *)
Theorem C77_written_twice_refuted : exists p : list (instr Z), exists env b ce cb,
  in_range Z (length env) (length b) p /\ (forall j, In j (written Z p) -> nth j b 0%Z = 0%Z) /\
  let (env', b') := forward Z 0%Z Z.add Z.mul p (env, b) in
  let (ce0, cb0) := backward Z 0%Z Z.add Z.mul p (ce, cb) in
  length ce = length env' /\ length cb = length b' /\
  (inner Z 0 Z.add Z.mul ce env' + inner Z 0 Z.add Z.mul cb b' <> inner Z 0 Z.add Z.mul ce0 env + inner Z 0 Z.add Z.mul cb0 b)%Z.
Proof.
  exists [Write Z false true 0 0; Write Z false true 0 1], [1%Z; 0%Z], [0%Z], [0%Z; 0%Z], [1%Z].
  split; [ cbn; lia | ]. split; [ intros j [ <- | [ <- | [ ] ] ]; reflexivity | ]. cbn. repeat split. discriminate.
Qed.
Print Assumptions C77_written_twice_refuted.
(** ... and the initial contents of the buffer get a cotangent at locations where these are overwritten. *)
Theorem C77_initial_refuted : exists p : list (instr Z), exists env b ce cb,
  in_range Z (length env) (length b) p /\ NoDup (written Z p) /\
  let (env', b') := forward Z 0%Z Z.add Z.mul p (env, b) in
  let (ce0, cb0) := backward Z 0%Z Z.add Z.mul p (ce, cb) in
  length ce = length env' /\ length cb = length b' /\ nth 0 cb0 0%Z <> 0%Z /\
  (forall z, forward Z 0%Z Z.add Z.mul p (env, [z]) = (env', b')) /\
  (inner Z 0 Z.add Z.mul ce env' + inner Z 0 Z.add Z.mul cb b' <> inner Z 0 Z.add Z.mul ce0 env + inner Z 0 Z.add Z.mul cb0 b)%Z.
Proof.
  exists [Write Z false true 0 0], [0%Z], [1%Z], [0%Z], [1%Z].
  split; [ cbn; lia | ]. split; [ repeat constructor; intros [ ] | ]. cbn. repeat split; discriminate.
Qed.
Print Assumptions C77_initial_refuted.
(** Non-vacuity: writing, reading back, scaling, and writing elsewhere; a write that a false predicate suppresses may be to the same place. *)
Example C77_ex : let p := [Write Z true false 1 0; Write Z false true 0 0; Read Z 0; Lin Z [3%Z; 2%Z]; Write Z true true 1 0] in
  written Z p = [0; 1] /\ in_range Z 1 2 p /\ NoDup (written Z p) /\
  forward Z 0%Z Z.add Z.mul p ([5%Z], [0%Z; 0%Z]) = ([25%Z; 5%Z; 5%Z], [5%Z; 25%Z]) /\
  fst (backward Z 0%Z Z.add Z.mul p ([0%Z; 0%Z; 0%Z], [100%Z; 1%Z])) = [105%Z].
Proof.
  intro p. split; [ reflexivity | ]. split; [ cbn; lia | ]. split; [ | split; reflexivity ].
  cbn. repeat constructor; cbn; intuition lia.
Qed.
Example C77_ex_batch : let x := fun i => match i with [b] => 10 + b | _ => 0 end in
  let '(o, oax) := select_batch nat (fun i => match i with [b] => Nat.eqb b 1 | _ => true end) x (fun _ => 7) (Some 0) (Some 0) None in
  oax = Some 0 /\ map (fun b => lane oax b (run_batched nat o) []) [0; 1; 2] = [7; 11; 7].
Proof. cbn. auto. Qed.

(** ** C78: conditional writes *)
Lemma place_lt m n i k : place m n i = Some k -> k < n.
Proof.
  unfold place. destruct (Nat.ltb_spec i n); [ intro E; injection E as <-; assumption | ].
  destruct m; [ discriminate | ]. destruct n; [ discriminate | ]. intro E. injection E as <-. lia.
Qed.
Lemma upd_same {A} (l : list A) i d : upd l i (nth i l d) = l.
Proof. revert i. induction l as [ | y l IH ]; intros [ | i ]; cbn; try reflexivity. now rewrite IH. Qed.
Lemma set_get V fill m (xs : list V) i : at_set V m xs i (at_get V fill m xs i) = xs.
Proof. unfold at_set, at_get. destruct (place m (length xs) i); [ apply upd_same | reflexivity ]. Qed.

(** C78. A write is [xs.at[i].set(x)] if the predicate is true and leaves [xs] alone otherwise, also for indices out of range; without a select the
    predicate is taken to be true. *)
Theorem C78_write : forall V fill real pred m (xs : list V) i x,
  maybe_set_mode V fill real pred m xs i x = if negb real || pred then at_set V m xs i x else xs.
Proof. intros V fill [ ] [ ] m xs i x; unfold maybe_set_mode; cbn [select_if_vmap negb orb]; try reflexivity. apply set_get. Qed.
Print Assumptions C78_write.
(** C78. Through any nesting of buffers, a write happens exactly if the given predicate and those of all enclosing loops are true; the predicates, tags and
    flags of the buffers stay as they are. *)
Fixpoint same_wrappers {V} (b b' : buffer V) : Prop :=
  match b, b' with
  | Arr _ _, Arr _ _ => True
  | Buf _ i p t f, Buf _ i' p' t' f' => p = p' /\ t = t' /\ f = f' /\ same_wrappers i i'
  | _, _ => False
  end.
Theorem C78_nested : forall V fill vmapped inner p tag mfs i x pred m,
  let b := Buf V inner p tag mfs in
  let b' := buffer_at_set V fill vmapped b i x pred m in
  let selects := match pred with Some _ => true | None => mfs || vmapped end in
  same_wrappers b b' /\
  contents V b' = if negb selects || (match pred with Some q => q | None => true end && forallb (fun q => q) (preds V b))
                  then at_set V m (contents V b) i x else contents V b.
Proof.
  intros V fill vmapped inner p tag mfs i x pred m.
  assert (H : forall b q f, same_wrappers b (op V fill vmapped b q m i x f) /\
    contents V (op V fill vmapped b q m i x f) = if negb (f || vmapped) || (q && forallb (fun r => r) (preds V b)) then at_set V m (contents V b) i x else contents V b).
  { induction b as [ xs | b IH p' t' f' ]; intros q f; cbn [op contents preds forallb same_wrappers].
    - split; [ exact I | ]. rewrite C78_write, andb_true_r. reflexivity.
    - destruct (IH (q && p') f) as [ H1 H2 ]. split; [ auto | ]. rewrite H2, andb_assoc. reflexivity. }
  cbv zeta. unfold buffer_at_set. destruct pred as [ q | ].
  - destruct (H (Buf V inner p tag mfs) q true) as [ H1 H2 ]. split; [ exact H1 | exact H2 ].
  - destruct (H (Buf V inner p tag mfs) true mfs) as [ H1 H2 ]. split; [ exact H1 | exact H2 ].
Qed.
Print Assumptions C78_nested.
(** C78. [buffer_at_set] outside of a loop does what it does inside of one - if the index is in range or there is no mode. *)
Theorem C78_outside : forall V fill vmapped (xs : list V) i x pred m tag mfs, i < length xs \/ m = Default ->
  contents V (buffer_at_set V fill vmapped (Arr V xs) i x pred m) = contents V (buffer_at_set V fill vmapped (Buf V (Arr V xs) true tag mfs) i x pred m).
Proof.
  intros V fill vmapped xs i x pred m tag mfs H. destruct (C78_nested V fill vmapped (Arr V xs) true tag mfs i x pred m) as [ _ -> ].
  assert (Hm : forall y, at_set V Default xs i y = at_set V m xs i y).
  { intro y. destruct H as [ H | -> ]; [ | reflexivity ]. unfold at_set, place. rewrite (proj2 (Nat.ltb_lt _ _) H). reflexivity. }
  cbn [contents buffer_at_set preds forallb]. rewrite Hm, ?andb_true_r. destruct pred as [ [ ] | ]; cbn [negb orb andb].
  - reflexivity.
  - apply set_get.
  - rewrite orb_true_r. reflexivity.
Qed.
Print Assumptions C78_outside.
(** C78. Otherwise not: [buffer_at_set] drops the keyword arguments of plain arrays. *)
Theorem C78_outside_refuted : exists (xs : list nat) i x m,
  contents nat (buffer_at_set nat 0 false (Arr nat xs) i x None m) = xs /\
  contents nat (buffer_at_set nat 0 false (Buf nat (Arr nat xs) true 0 false) i x None m) <> xs.
Proof. exists [1; 2], 5, 7, Clip. cbn. split; [ reflexivity | discriminate ]. Qed.
Print Assumptions C78_outside_refuted.
Example C78_ex : let b := Buf nat (Buf nat (Arr nat [1; 2; 3]) true 0 false) true 1 false in
  contents nat (buffer_at_set nat 0 false b 1 9 None Default) = [1; 9; 3] /\
  contents nat (buffer_at_set nat 0 false b 1 9 (Some false) Default) = [1; 2; 3] /\
  contents nat (buffer_at_set nat 0 true (Buf nat (Buf nat (Arr nat [1; 2; 3]) false 0 false) true 1 false) 1 9 None Default) = [1; 2; 3].
Proof. repeat split. Qed.
