(** C40, C64: rotary embeddings. *)
From Coq Require Import Ring.
From Verif Require Import Rope_Model.
Local Open Scope nat_scope.
Local Open Scope list_scope.

Section Rope.
  Variables (V Th D : Type).
  Variables (add mul : V -> V -> V) (opp : V -> V).
  Variables (fcos fsin : nat -> Th -> D -> nat -> nat -> V).
  Variable d_eqb : D -> D -> bool.
  Hypothesis d_eqb_eq : forall a b, d_eqb a b = true <-> a = b.
  Local Notation call := (call V Th D add mul opp fcos fsin d_eqb).
  Local Notation after := (after V Th D add mul opp fcos fsin d_eqb).
  Local Notation get := (get V D d_eqb).
  Local Notation put := (put V D d_eqb).

  Lemma get_put_same c n d v : get (put c n d v) n d = Some v.
  Proof. unfold Rope_Model.get, Rope_Model.put. cbn [find key_eqb fst snd]. unfold key_eqb. cbn [fst snd]. rewrite Nat.eqb_refl, (proj2 (d_eqb_eq d d) eq_refl). auto. Qed.
  Lemma get_put_other c n d v n' d' : (n, d) <> (n', d') -> get (put c n d v) n' d' = get c n' d'.
  Proof.
    intros N. unfold Rope_Model.get, Rope_Model.put. cbn [find]. assert (K : key_eqb V D d_eqb n' d' (n, d, v) = false).
    { unfold key_eqb. cbn [fst snd]. destruct (Nat.eqb_spec n' n) as [->|]; [|auto]. destruct (d_eqb d' d) eqn:E; [|auto]. apply d_eqb_eq in E. congruence. }
    rewrite K. f_equal. induction c as [|e c IH]; [auto|]. cbn [List.filter find]. destruct (key_eqb V D d_eqb n d e) eqn:E; cbn [negb].
    - rewrite IH. destruct (key_eqb V D d_eqb n' d' e) eqn:E'; [|auto]. exfalso. apply N. unfold key_eqb in *. apply andb_true_iff in E as [A B], E' as [A' B']. apply Nat.eqb_eq in A, A'. apply d_eqb_eq in B, B'. congruence.
    - cbn [find]. rewrite IH. auto.
  Qed.
  (** The table for [e] rows of one (size, dtype) entry. *)
  Definition good (c : cache V D) (n : nat) (d : D) (th : Th) : Prop := forall v, get c n d = Some v -> exists e, v = precompute V Th D fcos fsin n e th d.
  Lemma precompute_firstn n e k th d : k <= e -> firstn k (fst (precompute V Th D fcos fsin n e th d)) = fst (precompute V Th D fcos fsin n k th d) /\
    firstn k (snd (precompute V Th D fcos fsin n e th d)) = snd (precompute V Th D fcos fsin n k th d).
  Proof.
    intros H. unfold precompute. cbn [fst snd]. rewrite !firstn_map. assert (E : firstn k (seq 0 e) = seq 0 k); [|rewrite E; auto].
    replace e with (k + (e - k)) by lia. rewrite seq_app, firstn_app, seq_length, Nat.sub_diag. cbn [firstn]. rewrite app_nil_r. apply firstn_all2. rewrite seq_length. auto.
  Qed.
  Definition pure (r : rope Th D) (cols : nat) (x : list (list V)) : res (list (list V)) :=
    if (Z.of_nat cols =? r_size Th D r)%Z
    then let t := precompute V Th D fcos fsin cols (length x) (r_theta Th D r) (r_dtype Th D r) in
         Ok (zip (fun row cs => combine_row V add mul opp row (fst cs) (snd cs)) x (List.combine (fst t) (snd t)))
    else Err ValueError.
  Lemma call_pure r c cols x : good c cols (r_dtype Th D r) (r_theta Th D r) -> fst (call r c cols x) = pure r cols x.
  Proof.
    intros HG. unfold Rope_Model.call, pure. destruct (Z.of_nat cols =? r_size Th D r)%Z; [|auto]. cbn [negb]. set (n := length x). set (d := r_dtype Th D r) in *. set (th := r_theta Th D r) in *.
    set (c1 := match get c cols d with Some _ => c | None => put c cols d (precompute V Th D fcos fsin cols n th d) end).
    assert (H1 : exists e, get c1 cols d = Some (precompute V Th D fcos fsin cols e th d)).
    { unfold c1. destruct (get c cols d) as [v|] eqn:E; [destruct (HG _ E) as [e ->]; eauto|]. rewrite get_put_same. eauto. }
    destruct H1 as [e H1]. rewrite H1. unfold precompute at 1. cbv iota beta. rewrite map_length, seq_length. destruct (Nat.ltb_spec e n) as [L|L].
    - cbn [fst snd]. rewrite (proj1 (precompute_firstn cols n n th d (le_n _))), (proj2 (precompute_firstn cols n n th d (le_n _))). auto.
    - pose proof (precompute_firstn cols e n th d L) as [E1 E2]. unfold precompute at 1 in E1. unfold precompute at 1 in E2. cbn [fst snd] in *. rewrite E1, E2. auto.
  Qed.
  (** What a call does to the cache entry of a key. *)
  Lemma call_good r c cols x n d th : good c n d th -> ((cols, r_dtype Th D r) = (n, d) -> Z.of_nat cols = r_size Th D r -> r_theta Th D r = th) -> good (snd (call r c cols x)) n d th.
  Proof.
    intros HG HT. unfold Rope_Model.call. destruct (Z.eqb_spec (Z.of_nat cols) (r_size Th D r)) as [ES|]; [|auto]. cbn [negb]. set (k := length x). set (d' := r_dtype Th D r) in *. set (th' := r_theta Th D r) in *.
    assert (P : forall c0 v, good c0 n d th -> (exists e, v = precompute V Th D fcos fsin cols e th' d') -> good (put c0 cols d' v) n d th).
    { intros c0 v G0 [e ->] w H. destruct (Nat.eq_dec cols n) as [->|N]; [destruct (d_eqb d' d) eqn:E|].
      - apply d_eqb_eq in E. assert (Q : (n, d') = (n, d)) by congruence. specialize (HT Q ES). clearbody d' th'. subst d' th'. rewrite get_put_same in H. injection H as <-. eauto.
      - rewrite get_put_other in H; [eauto|]. intros Q. injection Q as Q. apply d_eqb_eq in Q. congruence.
      - rewrite get_put_other in H; [eauto|congruence]. }
    set (c1 := match get c cols d' with Some _ => c | None => _ end).
    assert (G1 : good c1 n d th) by (unfold c1; destruct (get c cols d'); [auto|apply P; eauto]).
    destruct (get c1 cols d') as [[fc fs]|]; [|auto]. destruct (length fc <? k); [|auto]. cbn [snd]. apply P; eauto.
  Qed.
  (** All calls made with this size and dtype used this theta. *)
  Definition same_theta (h : list (action V Th D)) (n : nat) (d : D) (th : Th) : Prop :=
    forall r cols x, In (Call V Th D r cols x) h -> cols = n -> Z.of_nat cols = r_size Th D r -> r_dtype Th D r = d -> r_theta Th D r = th.
  Lemma after_good h : forall c n d th, same_theta h n d th -> good c n d th -> good (after h c) n d th.
  Proof.
    induction h as [|[r cols x|] h IH]; intros c n d th HS HG; [auto| |]; cbn [Rope_Model.after].
    - apply IH; [intros r' cols' x' HI; apply HS with (x := x'); right; auto|]. apply call_good; [auto|]. intros Q E. injection Q as Q1 Q2. apply (HS r cols x); auto. left. auto.
    - apply IH; [intros r' cols' x' HI; apply HS with (x := x'); right; auto|]. intros v H. discriminate.
  Qed.
End Rope.

(** ** C40 *)
(** The formula of the docstring: entry j of row t. *)
Section Spec.
  Variables (V : Type) (add mul : V -> V -> V) (opp : V -> V).
  Definition rotated (c s : nat -> V) (row : list V) (dflt : V) (j : nat) : V :=
    let h := length row / 2 in
    if j <? h then add (mul (nth j row dflt) (c j)) (mul (opp (nth (h + j) row dflt)) (s j))
    else add (mul (nth j row dflt) (c (j - h))) (mul (nth (j - h) row dflt) (s (j - h))).
End Spec.
Lemma zip_length {X Y Z} (f : X -> Y -> Z) a : forall b, length (zip f a b) = min (length a) (length b).
Proof. induction a as [|x a IH]; intros [|y b]; cbn; auto. Qed.
Lemma zip_nth {X Y Z} (f : X -> Y -> Z) a : forall b i dx dy dz, i < length a -> i < length b -> nth i (zip f a b) dz = f (nth i a dx) (nth i b dy).
Proof. induction a as [|x a IH]; intros [|y b] i dx dy dz Ha Hb; cbn in Ha, Hb; try lia. destruct i; cbn; [auto|]. apply IH; lia. Qed.
Lemma combine_row_nth V add mul opp (row : list V) c s dflt j : length row = 2 * (length row / 2) -> length c = length row / 2 -> length s = length row / 2 -> j < length row ->
  nth j (combine_row V add mul opp row c s) dflt = rotated V add mul opp (fun i => nth i c dflt) (fun i => nth i s dflt) row dflt j.
Proof.
  intros HE Hc Hs Hj. unfold combine_row, rotated, rotate_half. set (h := length row / 2) in *.
  assert (L : length (map opp (skipn h row) ++ firstn h row) = length row) by (rewrite app_length, map_length, skipn_length, firstn_length; lia).
  rewrite (zip_nth _ _ _ j dflt dflt) by (rewrite zip_length, ?L, app_length; lia). rewrite !(zip_nth _ _ _ j dflt dflt) by (rewrite ?L, ?app_length; lia).
  destruct (Nat.ltb_spec j h) as [Q|Q].
  - rewrite !(app_nth1 _ _ dflt) by (rewrite ?map_length, ?skipn_length; lia). f_equal. f_equal. rewrite (nth_indep _ dflt (opp dflt)) by (rewrite map_length, skipn_length; lia). rewrite map_nth. f_equal.
    rewrite <- (firstn_skipn h row) at 2. rewrite app_nth2 by (rewrite firstn_length; lia). f_equal. rewrite firstn_length. lia.
  - rewrite !(app_nth2 _ _ dflt) by (rewrite ?map_length, ?skipn_length; lia). rewrite map_length, skipn_length, Hc, Hs. replace (length row - h) with h by lia. f_equal. f_equal.
    rewrite <- (firstn_skipn h row) at 2. rewrite app_nth1 by (rewrite firstn_length; lia). auto.
Qed.

Lemma nth_map_seq {X} (g : nat -> X) n i d : i < n -> nth i (map g (seq 0 n)) d = g i.
Proof. intros H. rewrite (nth_indep _ d (g 0)) by (rewrite map_length, seq_length; auto). rewrite map_nth, seq_nth by auto. auto. Qed.
Lemma halves n : (Z.of_nat n mod 2 = 0)%Z -> n = 2 * (n / 2).
Proof. intros H. change 2%Z with (Z.of_nat 2) in H. rewrite <- Nat2Z.inj_mod in H. pose proof (Nat.div_mod_eq n 2). lia. Qed.
Theorem C40_construct : forall Th D size th d,
  ((0 <= size)%Z /\ Z.Even size <-> exists r, make Th D size th d = Ok r) /\ (forall e, make Th D size th d = Err e -> e = ValueError).
Proof.
  intros Th D size th d. unfold make. split.
  - destruct (Z.ltb_spec size 0) as [L|L]; [split; [lia|intros [r H]; discriminate]|]. rewrite <- Z.even_spec, Zeven_mod. destruct (size mod 2 =? 0)%Z eqn:E.
    + split; [intros _; eexists; reflexivity|]. intros _. split; [auto|]. unfold Zeq_bool. apply Z.eqb_eq in E. rewrite E. auto.
    + split; [|intros [r H]; discriminate]. intros [_ H]. apply Z.eqb_neq in E. apply Zeq_bool_eq in H. contradiction.
  - intros e. destruct (size <? 0)%Z; [congruence|]. destruct (negb _); congruence.
Qed.
Print Assumptions C40_construct.
(** After any history in which this size and dtype were used with this theta only, entry (t, j) is the
    documented formula. *)
Theorem C40_history_partial : forall V Th D add mul opp fcos fsin d_eqb, (forall a b, d_eqb a b = true <-> a = b) ->
  forall (h : list (action V Th D)) size th d r cols x,
  make Th D size th d = Ok r -> Z.of_nat cols = size -> (forall row, In row x -> length row = cols) ->
  same_theta V Th D h cols d th ->
  exists y, fst (call V Th D add mul opp fcos fsin d_eqb r (after V Th D add mul opp fcos fsin d_eqb h []) cols x) = Ok y /\
    length y = length x /\
    forall t row dflt, nth_error x t = Some row -> exists out, nth_error y t = Some out /\ length out = cols /\
      forall j, j < cols -> nth j out dflt = rotated V add mul opp (fcos cols th d t) (fsin cols th d t) row dflt j.
Proof.
  intros V Th D add mul opp fcos fsin d_eqb HD h size th d r cols x HM HC HR HS. unfold make in HM. destruct (Z.ltb_spec size 0); [discriminate|]. destruct (size mod 2 =? 0)%Z eqn:EM; [|discriminate]. injection HM as <-.
  rewrite call_pure; [|auto|apply after_good; auto; [intros v H'; discriminate]]. unfold pure. cbn [r_size r_theta r_dtype]. replace (Z.of_nat cols =? size)%Z with true by lia. eexists. split; [reflexivity|].
  unfold precompute. cbn [fst snd]. assert (HE : cols = 2 * (cols / 2)) by (apply halves; apply Z.eqb_eq in EM; congruence).
  split; [rewrite zip_length, combine_length, !map_length, seq_length; lia|]. intros t row dflt Ht. assert (Lt : t < length x) by (apply nth_error_Some; congruence).
  set (cs := map (fun t => map (fun j => fcos cols th d t j) (seq 0 (cols / 2))) (seq 0 (length x))). set (ss := map (fun t => map (fun j => fsin cols th d t j) (seq 0 (cols / 2))) (seq 0 (length x))).
  assert (Ncs : nth t cs [] = map (fun j => fcos cols th d t j) (seq 0 (cols / 2))) by (unfold cs; rewrite nth_map_seq; auto).
  assert (Nss : nth t ss [] = map (fun j => fsin cols th d t j) (seq 0 (cols / 2))) by (unfold ss; rewrite nth_map_seq; auto).
  assert (LR : length row = cols) by (apply HR; eapply nth_error_In; eauto).
  assert (L1 : length (List.combine cs ss) = length x) by (unfold cs, ss; rewrite combine_length, !map_length, seq_length; lia).
  exists (combine_row V add mul opp row (nth t cs []) (nth t ss [])). split.
  - rewrite (nth_error_nth' _ []) by (rewrite zip_length; lia). f_equal. rewrite (zip_nth _ _ _ t [] ([], [])) by lia. rewrite combine_nth by (unfold cs, ss; rewrite !map_length; auto). cbn [fst snd]. f_equal. apply nth_error_nth. auto.
  - assert (LH : forall g : nat -> V, length (map g (seq 0 (cols / 2))) = cols / 2) by (intros; rewrite map_length, seq_length; auto).
    assert (LHr : length (rotate_half V opp row) = cols) by (unfold rotate_half; rewrite app_length, map_length, skipn_length, firstn_length, LR; lia).
    split; [unfold combine_row; rewrite !zip_length, !app_length, Ncs, Nss, !LH, LR, LHr; lia|]. intros j Hj. rewrite combine_row_nth by (rewrite ?LR, ?Ncs, ?Nss, ?LH; auto; lia). rewrite Ncs, Nss. unfold rotated. rewrite LR.
    assert (G : forall g : nat -> V, forall i, i < cols / 2 -> nth i (map g (seq 0 (cols / 2))) dflt = g i).
    { intros g i Hi. apply nth_map_seq. auto. }
    destruct (Nat.ltb_spec j (cols / 2)); rewrite !G by lia; auto.
Qed.
Print Assumptions C40_history_partial.
(** An earlier embedding of the same size and dtype with another theta changes the result. *)
Definition icall := call Z Z unit Z.add Z.mul Z.opp (fun _ th _ t _ => (th * Z.of_nat t)%Z) (fun _ _ _ _ _ => 0%Z) (fun _ _ => true).
Definition iafter := after Z Z unit Z.add Z.mul Z.opp (fun _ th _ t _ => (th * Z.of_nat t)%Z) (fun _ _ _ _ _ => 0%Z) (fun _ _ => true).
Definition rp th : rope Z unit := {| r_size := 2; r_theta := th; r_dtype := tt |}.
Theorem C40_theta_refuted :
  let x := [[1; 1]; [1; 1]]%Z in
  fst (icall (rp 5) [] 2 x) = Ok [[0; 0]; [5; 5]]%Z /\
  fst (icall (rp 5) (iafter [Call _ _ _ (rp 3) 2 x] []) 2 x) = Ok [[0; 0]; [3; 3]]%Z /\
  (** and a longer sequence recomputes the table, so that the result for the same rows changes again *)
  fst (icall (rp 5) (iafter [Call _ _ _ (rp 3) 2 x; Call _ _ _ (rp 5) 2 (x ++ x)] []) 2 x) = Ok [[0; 0]; [5; 5]]%Z.
Proof. repeat split. Qed.
Print Assumptions C40_theta_refuted.
Example C40_ex : exists r, make Z unit 2 5%Z tt = Ok r /\
  same_theta Z Z unit [Call _ _ _ (rp 5) 2 [[1; 1]]; Clear _ _ _; Call _ _ _ (rp 5) 2 [[1; 1]]; Call _ _ _ {| r_size := 4; r_theta := 3; r_dtype := tt |} 4 [[1; 1; 1; 1]]]%Z 2 tt 5%Z.
Proof. eexists. split; [reflexivity|]. intros r cols x [H|[H|[H|[H|[]]]]] -> _ _; try discriminate; injection H as <- _; auto. Qed.

(** ** C64: inner products depend on relative positions only *)
Section Relative.
  Variables (V : Type) (zero one : V) (add mul sub : V -> V -> V) (opp : V -> V).
  Variable Rth : ring_theory zero one add mul sub opp eq.
  Add Ring Vring : Rth.
  Fixpoint dot (a b : list V) : V := match a, b with x :: a', y :: b' => add (mul x y) (dot a' b') | _, _ => zero end.
  Fixpoint total (f : nat -> V) (n : nat) : V := match n with 0 => zero | S k => add (total f k) (f k) end.
  Lemma total_ext f g n : (forall i, i < n -> f i = g i) -> total f n = total g n.
  Proof. intros H. induction n as [|n IH]; [auto|]. cbn. rewrite IH, H by auto. auto. Qed.
  Lemma total_plus f n m : total f (n + m) = add (total f n) (total (fun i => f (n + i)) m).
  Proof. induction m as [|m IH]; [rewrite Nat.add_0_r; cbn; ring|]. rewrite Nat.add_succ_r. cbn. rewrite IH. ring. Qed.
  Lemma total_add f g n : total (fun i => add (f i) (g i)) n = add (total f n) (total g n).
  Proof. induction n as [|n IH]; cbn; [ring|rewrite IH; ring]. Qed.
  Lemma total_shift f n : add (f 0) (total (fun i => f (S i)) n) = add (total f n) (f n).
  Proof. induction n as [|n IH]; cbn; [ring|]. rewrite <- IH. cbn. ring. Qed.
  Lemma dot_total a : forall b, length a = length b -> dot a b = total (fun i => mul (nth i a zero) (nth i b zero)) (length a).
  Proof.
    induction a as [|x a IH]; intros [|y b] H; try discriminate; [auto|]. injection H as H. cbn [dot length]. rewrite IH by auto. cbn [total]. rewrite <- (total_shift (fun i => mul (nth i (x :: a) zero) (nth i (y :: b) zero))). cbn. auto.
  Qed.
  (** Rows q and k of length 2h, rotated by the angles of positions m and n. *)
  Lemma relative_lemma h (q k qm kn : list V) (cm sm cn sn cd sd : nat -> V) :
    length q = 2 * h -> length k = 2 * h -> length qm = 2 * h -> length kn = 2 * h ->
    (forall i, i < h -> add (mul (cm i) (cn i)) (mul (sm i) (sn i)) = cd i) ->
    (forall i, i < h -> sub (mul (sm i) (cn i)) (mul (cm i) (sn i)) = sd i) ->
    (forall j, j < 2 * h -> nth j qm zero = rotated V add mul opp cm sm q zero j) ->
    (forall j, j < 2 * h -> nth j kn zero = rotated V add mul opp cn sn k zero j) ->
    dot qm kn = total (fun i => add (mul (cd i) (add (mul (nth i q zero) (nth i k zero)) (mul (nth (h + i) q zero) (nth (h + i) k zero))))
                                    (mul (sd i) (sub (mul (nth i q zero) (nth (h + i) k zero)) (mul (nth (h + i) q zero) (nth i k zero))))) h.
  Proof.
    intros Lq Lk Lqm Lkn HC HS Hq Hk. rewrite dot_total by congruence. rewrite Lqm. replace (2 * h) with (h + h) by lia. rewrite total_plus, <- total_add. apply total_ext. intros i Hi.
    assert (Dq : length q / 2 = h) by (rewrite Lq, Nat.mul_comm; apply Nat.div_mul; lia). assert (Dk : length k / 2 = h) by (rewrite Lk, Nat.mul_comm; apply Nat.div_mul; lia).
    rewrite !Hq, !Hk by lia. unfold rotated. rewrite Dq, Dk. replace (i <? h) with true by lia. replace (h + i <? h) with false by lia. replace (h + i - h) with i by lia. rewrite <- (HC i Hi), <- (HS i Hi). ring.
  Qed.
End Relative.
Theorem C64_relative : forall V zero one add mul sub opp, ring_theory zero one add mul sub opp eq ->
  forall Th D fcos fsin d_eqb, (forall a b : D, d_eqb a b = true <-> a = b) ->
  forall (h : list (action V Th D)) size th d r cols x y X Y q k m n m' n' a b a' b',
  make Th D size th d = Ok r -> Z.of_nat cols = size -> same_theta V Th D h cols d th ->
  (forall row, In row (x ++ y) -> length row = cols) ->
  (** the addition theorems for cos (a - b) and sin (a - b) *)
  (exists cd sd : Z -> nat -> V, forall t u i,
     add (mul (fcos cols th d t i) (fcos cols th d u i)) (mul (fsin cols th d t i) (fsin cols th d u i)) = cd (Z.of_nat t - Z.of_nat u)%Z i /\
     sub (mul (fsin cols th d t i) (fcos cols th d u i)) (mul (fcos cols th d t i) (fsin cols th d u i)) = sd (Z.of_nat t - Z.of_nat u)%Z i) ->
  let c := after V Th D add mul opp fcos fsin d_eqb h [] in
  fst (call V Th D add mul opp fcos fsin d_eqb r c cols x) = Ok X -> fst (call V Th D add mul opp fcos fsin d_eqb r c cols y) = Ok Y ->
  nth_error x m = Some q -> nth_error x m' = Some q -> nth_error y n = Some k -> nth_error y n' = Some k -> m + n' = m' + n ->
  nth_error X m = Some a -> nth_error Y n = Some b -> nth_error X m' = Some a' -> nth_error Y n' = Some b' ->
  dot V zero add mul a b = dot V zero add mul a' b'.
Proof.
  intros V zero one add mul sub opp Rth Th D fcos fsin d_eqb HD h size th d r cols x y X Y q k m n m' n' a b a' b' HM HC HS HL (cd & sd & HT) c HX HY Hm Hm' Hn Hn' HE Ha Hb Ha' Hb'.
  destruct (C40_history_partial V Th D add mul opp fcos fsin d_eqb HD h size th d r cols x HM HC (fun row H => HL row (in_or_app _ _ _ (or_introl H))) HS) as (X0 & EX & _ & PX).
  destruct (C40_history_partial V Th D add mul opp fcos fsin d_eqb HD h size th d r cols y HM HC (fun row H => HL row (in_or_app _ _ _ (or_intror H))) HS) as (Y0 & EY & _ & PY).
  fold c in EX, EY. rewrite EX in HX. rewrite EY in HY. injection HX as ->. injection HY as ->.
  destruct (PX m q zero Hm) as (a0 & Ea & La & Fa). destruct (PX m' q zero Hm') as (a1 & Ea' & La' & Fa'). destruct (PY n k zero Hn) as (b0 & Eb & Lb & Fb). destruct (PY n' k zero Hn') as (b1 & Eb' & Lb' & Fb').
  rewrite Ea in Ha. rewrite Ea' in Ha'. rewrite Eb in Hb. rewrite Eb' in Hb'. injection Ha as ->. injection Ha' as ->. injection Hb as ->. injection Hb' as ->.
  unfold make in HM. destruct (Z.ltb_spec size 0); [discriminate|]. destruct (size mod 2 =? 0)%Z eqn:EM; [|discriminate]. assert (H2 : cols = 2 * (cols / 2)) by (apply halves; apply Z.eqb_eq in EM; congruence).
  assert (Lq : length q = cols) by (apply HL, in_or_app; left; eapply nth_error_In; eauto). assert (Lk : length k = cols) by (apply HL, in_or_app; right; eapply nth_error_In; eauto).
  set (w := cols / 2) in *. rewrite (relative_lemma V zero one add mul sub opp Rth w q k a b (fcos cols th d m) (fsin cols th d m) (fcos cols th d n) (fsin cols th d n) (cd (Z.of_nat m - Z.of_nat n)%Z) (sd (Z.of_nat m - Z.of_nat n)%Z));
    [|congruence|congruence|congruence|congruence|intros; apply HT|intros; apply HT|intros; apply Fa; lia|intros; apply Fb; lia].
  rewrite (relative_lemma V zero one add mul sub opp Rth w q k a' b' (fcos cols th d m') (fsin cols th d m') (fcos cols th d n') (fsin cols th d n') (cd (Z.of_nat m' - Z.of_nat n')%Z) (sd (Z.of_nat m' - Z.of_nat n')%Z));
    [|congruence|congruence|congruence|congruence|intros; apply HT|intros; apply HT|intros; apply Fa'; lia|intros; apply Fb'; lia].
  replace (Z.of_nat m' - Z.of_nat n')%Z with (Z.of_nat m - Z.of_nat n)%Z by lia. auto.
Qed.
Print Assumptions C64_relative.
(** Quarter turns over the integers satisfy the addition theorems. *)
Definition qcos (t : Z) : Z := match (t mod 4)%Z with 0 => 1 | 2 => -1 | _ => 0 end%Z.
Definition qsin (t : Z) : Z := match (t mod 4)%Z with 1 => 1 | 3 => -1 | _ => 0 end%Z.
Example C64_ex : (exists cd sd : Z -> nat -> Z, forall t u (i : nat),
     (qcos (Z.of_nat t) * qcos (Z.of_nat u) + qsin (Z.of_nat t) * qsin (Z.of_nat u) = cd (Z.of_nat t - Z.of_nat u) i)%Z /\
     (qsin (Z.of_nat t) * qcos (Z.of_nat u) - qcos (Z.of_nat t) * qsin (Z.of_nat u) = sd (Z.of_nat t - Z.of_nat u) i)%Z) /\
  fst (call Z unit unit Z.add Z.mul Z.opp (fun _ _ _ t _ => qcos (Z.of_nat t)) (fun _ _ _ t _ => qsin (Z.of_nat t)) (fun _ _ => true) {| r_size := 2; r_theta := tt; r_dtype := tt |} [] 2 [[3; 4]; [3; 4]; [3; 4]]%Z)
    = Ok [[3; 4]; [-4; 3]; [-3; -4]]%Z.
Proof.
  split; [|reflexivity]. exists (fun z _ => qcos z), (fun z _ => qsin z). intros t u _. set (a := Z.of_nat t). set (b := Z.of_nat u). clearbody a b. clear t u. unfold qcos, qsin. rewrite (Zminus_mod a b 4).
  pose proof (Z.mod_pos_bound a 4 eq_refl) as Ba. pose proof (Z.mod_pos_bound b 4 eq_refl) as Bb. set (x := (a mod 4)%Z) in *. set (y := (b mod 4)%Z) in *. clearbody x y.
  assert (Cx : (x = 0 \/ x = 1 \/ x = 2 \/ x = 3)%Z) by lia. assert (Cy : (y = 0 \/ y = 1 \/ y = 2 \/ y = 3)%Z) by lia.
  destruct Cx as [->|[->|[->| ->]]], Cy as [->|[->|[->| ->]]]; split; reflexivity.
Qed.
