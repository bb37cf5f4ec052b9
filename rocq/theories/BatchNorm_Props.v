(** C42: what BatchNorm does to its state. *)
From Verif Require Import State_Proofs BatchNorm_Model.
From Coq Require Import Qfield Qabs Lqa.
Local Open Scope nat_scope.

(** State object [s] holds flag [b] and running statistics [rm], [rv] of dtype [dt] for module [m]. *)
Definition holds (h : bheap) (s : nat) (m : bn) (d : dict (tree arr)) (b : bool) (dt : nat) (rm rv : list Q) : Prop :=
  deref h s = Some d /\ dget d (first_time_index m) = Some (Leaf (ABool b)) /\
  dget d (state_index m) = Some (Node 0 [Leaf (AVec dt rm); Leaf (AVec dt rv)]).
(** A module as made by [__init__] (before or after training its weights). *)
Definition good (m : bn) (n : nat) : Prop :=
  first_time_index m <> state_index m /\ input_size m = n /\
  ((weight m = None /\ bias m = None) \/
   exists w b, weight m = Some w /\ bias m = Some b /\ length w = n /\ length b = n).
Definition sized (n : nat) (rm rv : list Q) : Prop := length rm = n /\ length rv = n.

(** The statistics of a batch: mean over all entries of the examples' means, and of squared deviations. *)
Definition mean_of (xs : list example) (c : nat) : Q :=
  qmean (map (fun x => qmean (nth c x [])) xs).
Definition var_of (xs : list example) (c : nat) : Q :=
  qmean (map (fun x => qmean (map (fun y => (y - mean_of xs c) * (y - mean_of xs c))%Q (nth c x []))) xs).

(** The output: every entry normalised with statistics [rm], [rv]. *)
Definition normalised (sqrt : Q -> Q) (m : bn) (n : nat) (rm rv : list Q) (xs ys : list example) : Prop :=
  ys = map (fun x => map (fun c => map (fun y =>
         let z := ((y - nth c rm 0) / sqrt (nth c rv 0 + eps m))%Q in
         match weight m, bias m with Some w, Some b => (z * nth c w 0 + nth c b 0)%Q | _, _ => z end)
         (nth c x [])) (seq 0 n)) xs.

Lemma qsum_nonneg l : (forall x, In x l -> 0 <= x)%Q -> (0 <= qsum l)%Q.
Proof.
  induction l as [|a l IH]; intros H; simpl; [apply Qle_refl|].
  assert (0 <= a)%Q by (apply H; left; reflexivity).
  assert (0 <= qsum l)%Q by (apply IH; intros; apply H; right; assumption). lra.
Qed.
Lemma qmean_nonneg l : (forall x, In x l -> 0 <= x)%Q -> (0 <= qmean l)%Q.
Proof.
  intros H. unfold qmean. destruct l as [|a l]; [vm_compute; discriminate|].
  apply Qle_shift_div_l; [|rewrite Qmult_0_l; apply qsum_nonneg; exact H].
  unfold Qlt, inject_Z; simpl. lia.
Qed.
Lemma var_nonneg xs c : (0 <= var_of xs c)%Q.
Proof.
  unfold var_of. apply qmean_nonneg. intros q Hq. apply in_map_iff in Hq as (x & <- & _).
  apply qmean_nonneg. intros q Hq. apply in_map_iff in Hq as (y & <- & _).
  generalize (y - mean_of xs c)%Q as z. intros [a b]. unfold Qle, Qmult; simpl. nia.
Qed.
Lemma stat_mean_eq xs c : stat_mean xs c = mean_of xs c.
Proof. unfold stat_mean, chan, mean_of. rewrite map_map. reflexivity. Qed.
Lemma stat_var_eq xs c : stat_var xs c = var_of xs c.
Proof.
  unfold stat_var. rewrite stat_mean_eq. unfold chan. rewrite map_map.
  fold (var_of xs c). pose proof (var_nonneg xs c) as H. apply Qle_bool_iff in H. rewrite H. reflexivity.
Qed.

(** The running statistics after a training call. *)
Definition next (first : bool) (mom : Q) (b r : nat -> Q) (c : nat) : Q :=
  if first then b c else ((1 - mom) * b c + mom * r c)%Q.

Lemma combine_map_seq (f : nat -> Q) (r : list Q) n : length r = n ->
  List.combine (map f (seq 0 n)) r = map (fun c => (f c, nth c r 0%Q)) (seq 0 n).
Proof.
  intros <-. assert (H : forall k, List.combine (map f (seq k (length r))) r
      = map (fun c => (f c, nth (c - k) r 0%Q)) (seq k (length r))).
  { induction r as [|a r IH]; intros k; simpl; [reflexivity|]. rewrite Nat.sub_diag. f_equal.
    rewrite IH. apply map_ext_in. intros c Hc. apply in_seq in Hc.
    replace (c - k) with (S (c - S k)) by lia. reflexivity. }
  rewrite H. apply map_ext. intros c. rewrite Nat.sub_0_r. reflexivity.
Qed.

Lemma update_stat_ok first mom dt f r n : length r = n ->
  update_stat first mom dt (map f (seq 0 n)) dt r
  = Ok (dt, map (next first mom f (fun c => nth c r 0%Q)) (seq 0 n)).
Proof.
  intros Hr. unfold update_stat, bcast. rewrite map_length, seq_length, Hr, Nat.eqb_refl. cbn [bind].
  unfold lax_select. cbn [fst snd]. rewrite Nat.max_id, Nat.eqb_refl, !map_length, combine_length, !map_length, seq_length, Hr.
  rewrite Nat.min_id, Nat.eqb_refl. cbn [andb]. f_equal.
  rewrite combine_map_seq by exact Hr. rewrite map_map. destruct first; reflexivity.
Qed.

Lemma bset_ok (h : bheap) s d k old v : deref h s = Some d -> dget d k = Some old ->
  as_arrays (fun a : arr => Ok a) v = Ok v ->
  tree_eqb arr_seqb (structs arr_struct old) (structs arr_struct v) = true ->
  bset h s (Some k) v = (invalidate (h ++ [Some (dset d k v)]) s, Ok (length h)).
Proof. intros H1 H2 H3 H4. unfold bset, state_set. rewrite H1, H2, H3, H4. reflexivity. Qed.

Lemma normalise_ok sqrt m n xs rm rv : good m n -> sized n rm rv ->
  exists ys, normalise sqrt m n xs rm rv = Ok ys /\ normalised sqrt m n rm rv xs ys.
Proof.
  intros (_ & _ & Hw) (H1 & H2). unfold normalise.
  assert (E : sizes_ok m n rm rv = true).
  { unfold sizes_ok. rewrite H1, H2, Nat.eqb_refl.
    destruct Hw as [[-> ->]|(w & b & -> & -> & <- & E)]; [reflexivity|]. rewrite E, Nat.eqb_refl. reflexivity. }
  rewrite E. eexists. split; [reflexivity|]. reflexivity.
Qed.

(** Inference: the state object is untouched and handed back; the output uses the stored statistics. *)
Theorem C42_inference : forall sqrt h s m d b dt rm rv axis n dx xs inf,
  good m n -> holds h s m d b dt rm rv -> sized n rm rv ->
  (match inf with Some i => i | None => inference m end) = true ->
  exists ys, bn_call sqrt h s m axis n dx xs inf = (h, Ok (ys, s)) /\ normalised sqrt m n rm rv xs ys.
Proof.
  intros sqrt h s m d b dt rm rv axis n dx xs inf Hg (Hd & Hf & Hs) Hz Hi.
  destruct (normalise_ok sqrt m n xs rm rv Hg Hz) as (ys & E & N). exists ys. split; [|exact N].
  unfold bn_call. rewrite Hi. unfold bget, state_get. rewrite Hd, Hs. cbn [bind]. rewrite E. reflexivity.
Qed.
Print Assumptions C42_inference.
(** Inputs with another number of channels are refused. *)
Theorem C42_channels : forall sqrt h s m d b dt rm rv axis n dx xs inf,
  holds h s m d b dt rm rv -> (match inf with Some i => i | None => inference m end) = true ->
  (length rm <> n \/ length rv <> n \/ (exists w, weight m = Some w /\ length w <> n) \/ (exists w, bias m = Some w /\ length w <> n)) ->
  bn_call sqrt h s m axis n dx xs inf = (h, Err ValueError).
Proof.
  intros sqrt h s m d b dt rm rv axis n dx xs inf (Hd & Hf & Hs) Hi Hn. unfold bn_call. rewrite Hi. unfold bget, state_get. rewrite Hd, Hs. cbn [bind].
  unfold normalise. assert (E : sizes_ok m n rm rv = false); [|rewrite E; reflexivity]. unfold sizes_ok.
  assert (HX : forall l : list Q, length l <> n -> Nat.eqb n (length l) = false) by (intros l H; apply Nat.eqb_neq; auto).
  destruct Hn as [H|[H|[(w & -> & H)|(w & -> & H)]]]; rewrite (HX _ H), ?andb_false_r; reflexivity.
Qed.
Print Assumptions C42_channels.

(** Training: the running statistics become those of the batch if the flag is set, otherwise the
    momentum average; the flag is cleared; nothing else in the state changes; the state passed in is
    consumed; the output is normalised with the new running statistics. *)
Theorem C42_training : forall sqrt h s m d b dt rm rv n xs inf,
  good m n -> holds h s m d b dt rm rv -> sized n rm rv ->
  (match inf with Some i => i | None => inference m end) = false ->
  exists h' s' d' rm' rv' ys,
    bn_call sqrt h s m true n dt xs inf = (h', Ok (ys, s')) /\
    holds h' s' m d' false dt rm' rv' /\ sized n rm' rv' /\
    rm' = map (next b (momentum m) (mean_of xs) (fun c => nth c rm 0%Q)) (seq 0 n) /\
    rv' = map (next b (momentum m) (var_of xs) (fun c => nth c rv 0%Q)) (seq 0 n) /\
    keys d' = keys d /\
    (forall k, k <> first_time_index m -> k <> state_index m -> dget d' k = dget d k) /\
    deref h' s = None /\ (forall x, x < length h -> x <> s -> deref h' x = deref h x) /\
    normalised sqrt m n rm' rv' xs ys.
Proof.
  intros sqrt h s m d b dt rm rv n xs inf Hg (Hd & Hf & Hs) Hz Hi.
  pose proof Hg as (Hne & _ & _). pose proof Hz as (Hz1 & Hz2).
  assert (Hlt : s < length h) by (eapply deref_lt; exact Hd).
  set (rm' := map (next b (momentum m) (mean_of xs) (fun c => nth c rm 0%Q)) (seq 0 n)).
  set (rv' := map (next b (momentum m) (var_of xs) (fun c => nth c rv 0%Q)) (seq 0 n)).
  assert (Hz' : sized n rm' rv') by (unfold sized, rm', rv'; rewrite !map_length, seq_length; auto).
  destruct (normalise_ok sqrt m n xs rm' rv' Hg Hz') as (ys & E & N).
  set (d1 := dset d (first_time_index m) (Leaf (ABool false))).
  set (h1 := invalidate (h ++ [Some d1]) s).
  assert (S1 : bset h s (Some (first_time_index m)) (Leaf (ABool false)) = (h1, Ok (length h))).
  { apply bset_ok with (old := Leaf (ABool b)); auto. }
  destruct (replaced_intro h s d1 Hlt) as (_ & L1 & _ & D1 & D2 & D3). fold h1 in L1, D1, D2, D3.
  assert (Hs1 : dget d1 (state_index m) = Some (Node 0 [Leaf (AVec dt rm); Leaf (AVec dt rv)])).
  { unfold d1. rewrite dget_dset, marker_eqb_neq by exact Hne. exact Hs. }
  set (d2 := dset d1 (state_index m) (Node 0 [Leaf (AVec dt rm'); Leaf (AVec dt rv')])).
  set (h2 := invalidate (h1 ++ [Some d2]) (length h)).
  assert (S2 : bset h1 (length h) (Some (state_index m)) (Node 0 [Leaf (AVec dt rm'); Leaf (AVec dt rv')])
               = (h2, Ok (length h1))).
  { eapply bset_ok; [exact D2|exact Hs1|reflexivity|].
    simpl. destruct Hz' as [-> ->]. unfold arr_seqb; simpl. rewrite Hz1, Hz2, !Nat.eqb_refl. reflexivity. }
  assert (Hlt1 : length h < length h1) by lia.
  destruct (replaced_intro h1 (length h) d2 Hlt1) as (_ & L2 & _ & G1 & G2 & G3). fold h2 in L2, G1, G2, G3.
  exists h2, (length h1), d2, rm', rv', ys.
  split.
  { unfold bn_call. rewrite Hi. unfold bget at 1, state_get. rewrite Hd, Hf. rewrite S1. cbn [negb].
    unfold bget, state_get. rewrite D2, Hs1.
    rewrite (update_stat_ok b (momentum m) dt (stat_mean xs) rm n Hz1).
    rewrite (update_stat_ok b (momentum m) dt (stat_var xs) rv n Hz2).
    assert (E1 : map (next b (momentum m) (stat_mean xs) (fun c => nth c rm 0%Q)) (seq 0 n) = rm').
    { apply map_ext. intros c. unfold next. rewrite stat_mean_eq. reflexivity. }
    assert (E2 : map (next b (momentum m) (stat_var xs) (fun c => nth c rv 0%Q)) (seq 0 n) = rv').
    { apply map_ext. intros c. unfold next. rewrite stat_var_eq. reflexivity. }
    rewrite E1, E2, S2. rewrite E. reflexivity. }
  split.
  { split; [exact G2|]. unfold d2. rewrite !dget_dset, marker_eqb_refl. rewrite marker_eqb_neq by congruence.
    unfold d1. rewrite dget_dset, marker_eqb_refl. auto. }
  split; [exact Hz'|]. split; [reflexivity|]. split; [reflexivity|].
  split. { unfold d2. rewrite keys_dset by congruence. unfold d1. apply keys_dset. congruence. }
  split. { intros k K1 K2. unfold d2, d1. rewrite !dget_dset, !marker_eqb_neq by congruence. reflexivity. }
  split. { rewrite G3 by lia. exact D1. }
  split; [|exact N]. intros x Hx Hn. rewrite G3 by lia. apply D3; assumption.
Qed.
Print Assumptions C42_training.

(** ** Histories *)
(** A run of the module on a sequence of batches, each in training or inference mode. *)
Fixpoint bn_run (sqrt : Q -> Q) (h : bheap) (s : nat) (m : bn) (n dt : nat) (es : list (bool * list example))
    : bheap * res nat :=
  match es with
  | [] => (h, Ok s)
  | (inf, xs) :: es' =>
      match bn_call sqrt h s m true n dt xs (Some inf) with
      | (h', Ok (_, s')) => bn_run sqrt h' s' m n dt es'
      | (h', Err e) => (h', Err e)
      end
  end.
(** The batches seen in training mode. *)
Definition trained (es : list (bool * list example)) : list (list example) :=
  map snd (List.filter (fun e => negb (fst e)) es).
(** Exponentially weighted sum: the first of [v :: vs] has weight [mom^k], the [i]-th after it
    [(1 - mom) * mom^(k-i)], where [k] is the length of [vs]. *)
Fixpoint qpow (q : Q) (k : nat) : Q := match k with O => 1%Q | S k' => (q * qpow q k')%Q end.
Fixpoint tail_sum (mom : Q) (vs : list Q) : Q :=
  match vs with
  | [] => 0%Q
  | w :: vs' => ((1 - mom) * qpow mom (length vs') * w + tail_sum mom vs')%Q
  end.
Definition weighted (mom : Q) (v : Q) (vs : list Q) : Q := (qpow mom (length vs) * v + tail_sum mom vs)%Q.

Fixpoint fold_stat (b : bool) (mom : Q) (vs : list Q) (r : Q) : Q :=
  match vs with
  | [] => r
  | v :: vs' => fold_stat false mom vs' (if b then v else ((1 - mom) * v + mom * r)%Q)
  end.

Lemma fold_weighted mom vs : forall r, (fold_stat false mom vs r == weighted mom r vs)%Q.
Proof.
  induction vs as [|v vs IH]; intros r; simpl; [unfold weighted; simpl; ring|].
  rewrite IH. unfold weighted; simpl. ring.
Qed.

Lemma nth_map_seq0 (f : nat -> Q) n c : c < n -> nth c (map f (seq 0 n)) 0%Q = f c.
Proof.
  intros H. rewrite nth_indep with (d' := f 0) by (rewrite map_length, seq_length; exact H).
  rewrite map_nth, seq_nth by exact H. reflexivity.
Qed.

Lemma run_fold sqrt m n dt : good m n -> forall es h s d b rm rv,
  holds h s m d b dt rm rv -> sized n rm rv ->
  exists h' s' d' rm' rv',
    bn_run sqrt h s m n dt es = (h', Ok s') /\
    holds h' s' m d' (b && match trained es with [] => true | _ => false end) dt rm' rv' /\ sized n rm' rv' /\
    (trained es = [] -> h' = h /\ s' = s) /\
    (forall c, c < n ->
       nth c rm' 0%Q = fold_stat b (momentum m) (map (fun xs => mean_of xs c) (trained es)) (nth c rm 0%Q) /\
       nth c rv' 0%Q = fold_stat b (momentum m) (map (fun xs => var_of xs c) (trained es)) (nth c rv 0%Q)) /\
    (forall k, k <> first_time_index m -> k <> state_index m -> dget d' k = dget d k).
Proof.
  intros Hg. induction es as [|[inf xs] es IH]; intros h s d b rm rv Hh Hz.
  - exists h, s, d, rm, rv. split; [reflexivity|]. split; [unfold trained; simpl; rewrite andb_true_r; exact Hh|].
    split; [exact Hz|]. split; [auto|]. split; [|auto]. intros c _. split; reflexivity.
  - destruct inf.
    + destruct (C42_inference sqrt h s m d b dt rm rv true n dt xs (Some true) Hg Hh Hz eq_refl) as (ys & E & _).
      destruct (IH h s d b rm rv Hh Hz) as (h' & s' & d' & rm' & rv' & A1 & A2 & A3 & A4 & A5 & A6).
      exists h', s', d', rm', rv'. cbn [bn_run]. rewrite E.
      split; [exact A1|]. split; [exact A2|]. split; [exact A3|]. split; [exact A4|]. split; [exact A5|exact A6].
    + destruct (C42_training sqrt h s m d b dt rm rv n xs (Some false) Hg Hh Hz eq_refl)
        as (h1 & s1 & d1 & rm1 & rv1 & ys & E & B1 & B2 & B3 & B4 & _ & B5 & _).
      destruct (IH h1 s1 d1 false rm1 rv1 B1 B2) as (h' & s' & d' & rm' & rv' & A1 & A2 & A3 & A4 & A5 & A6).
      exists h', s', d', rm', rv'. cbn [bn_run]. rewrite E.
      split; [exact A1|]. split; [change (trained ((false, xs) :: es)) with (xs :: trained es); rewrite andb_false_r; exact A2|].
      split; [exact A3|]. split; [discriminate|]. split.
      * intros c Hc. destruct (A5 c Hc) as [A7 A8]. rewrite A7, A8, B3, B4.
        rewrite !nth_map_seq0 by exact Hc. split; reflexivity.
      * intros k K1 K2. rewrite A6, B5 by assumption. reflexivity.
Qed.

(** Any sequence of calls, in training or inference mode, on a freshly initialised state: all
    succeed; the running statistics are the exponentially weighted averages of the statistics of
    the batches seen in training mode (the first batch having the weight of everything before),
    whatever the initial buffers contained; the flag is cleared exactly by the first training
    call; without training calls the very same state object is returned. *)
Theorem C42_history : forall sqrt m n dt h s d rm rv es,
  good m n -> holds h s m d true dt rm rv -> sized n rm rv ->
  exists h' s', bn_run sqrt h s m n dt es = (h', Ok s') /\
    (trained es = [] -> h' = h /\ s' = s) /\
    (forall b1 bs, trained es = b1 :: bs ->
       exists d' rm' rv', holds h' s' m d' false dt rm' rv' /\ sized n rm' rv' /\
         (forall k, k <> first_time_index m -> k <> state_index m -> dget d' k = dget d k) /\
         forall c, c < n ->
           (nth c rm' 0 == weighted (momentum m) (mean_of b1 c) (map (fun xs => mean_of xs c) bs))%Q /\
           (nth c rv' 0 == weighted (momentum m) (var_of b1 c) (map (fun xs => var_of xs c) bs))%Q).
Proof.
  intros sqrt m n dt h s d rm rv es Hg Hh Hz.
  destruct (run_fold sqrt m n dt Hg es h s d true rm rv Hh Hz)
    as (h' & s' & d' & rm' & rv' & A1 & A2 & A3 & A4 & A5 & A6).
  exists h', s'. split; [exact A1|]. split; [exact A4|]. intros b1 bs Ht. rewrite Ht in *.
  exists d', rm', rv'. split; [exact A2|]. split; [exact A3|]. split; [exact A6|].
  intros c Hc. destruct (A5 c Hc) as [-> ->]. simpl. split; apply fold_weighted.
Qed.
Print Assumptions C42_history.

(** With a momentum between 0 and 1 the running statistics stay between the least and the greatest
    batch statistic; in particular running variances are not negative. *)
Theorem C42_average : forall mom lo hi vs v, (0 <= mom <= 1)%Q ->
  (lo <= v <= hi)%Q -> Forall (fun w => lo <= w <= hi)%Q vs -> (lo <= weighted mom v vs <= hi)%Q.
Proof.
  intros mom lo hi vs v Hm Hv Hvs. rewrite <- (fold_weighted mom vs v). revert v Hv.
  induction Hvs as [|w vs Hw _ IH]; intros v Hv; simpl; [exact Hv|]. apply IH.
  split; nra.
Qed.
Print Assumptions C42_average.

(** Training without the named axis in scope raises, but the state passed in is consumed: only
    [set] of the flag has happened, and the resulting state is not returned. *)
Theorem C42_no_axis : forall sqrt h s m d b dt rm rv n dx xs inf,
  holds h s m d b dt rm rv ->
  (match inf with Some i => i | None => inference m end) = false ->
  exists h', bn_call sqrt h s m false n dx xs inf = (h', Err NameError) /\ deref h' s = None.
Proof.
  intros sqrt h s m d b dt rm rv n dx xs inf (Hd & Hf & _) Hi.
  assert (Hlt : s < length h) by (eapply deref_lt; exact Hd).
  eexists. split.
  - unfold bn_call. rewrite Hi. unfold bget, state_get. rewrite Hd, Hf.
    rewrite (bset_ok h s d (first_time_index m) (Leaf (ABool b)) (Leaf (ABool false)) Hd Hf eq_refl eq_refl).
    reflexivity.
  - rewrite deref_invalidate, Nat.eqb_refl. reflexivity.
Qed.
Print Assumptions C42_no_axis.

(** Training on inputs of another floating dtype than the running statistics raises and consumes the
    state: [TypeError] from [lax.select] for a lower, [ValueError] from [set] for a higher precision. *)
Theorem C42_dtype : forall sqrt h s m d b dt rm rv n dx xs inf,
  good m n -> holds h s m d b dt rm rv -> sized n rm rv -> dx <> dt ->
  (match inf with Some i => i | None => inference m end) = false ->
  exists h', bn_call sqrt h s m true n dx xs inf = (h', Err (if dx <? dt then TypeError else ValueError)) /\
    deref h' s = None.
Proof.
  intros sqrt h s m d b dt rm rv n dx xs inf (Hne & _) (Hd & Hf & Hs) (Hz1 & Hz2) Hdt Hi.
  assert (Hlt : s < length h) by (eapply deref_lt; exact Hd).
  set (d1 := dset d (first_time_index m) (Leaf (ABool false))).
  set (h1 := invalidate (h ++ [Some d1]) s).
  assert (S1 : bset h s (Some (first_time_index m)) (Leaf (ABool false)) = (h1, Ok (length h))).
  { apply bset_ok with (old := Leaf (ABool b)); auto. }
  destruct (replaced_intro h s d1 Hlt) as (_ & L1 & _ & D1 & D2 & D3). fold h1 in L1, D1, D2, D3.
  assert (Hs1 : dget d1 (state_index m) = Some (Node 0 [Leaf (AVec dt rm); Leaf (AVec dt rv)])).
  { unfold d1. rewrite dget_dset, marker_eqb_neq by exact Hne. exact Hs. }
  exists h1. split; [|exact D1].
  unfold bn_call. rewrite Hi. unfold bget at 1, state_get. rewrite Hd, Hf, S1. cbn [negb].
  unfold bget, state_get. rewrite D2, Hs1.
  assert (U : forall f r, length r = n ->
    exists l, length l = n /\ update_stat b (momentum m) dx (map f (seq 0 n)) dt r
      = if dx <? dt then Err TypeError else Ok (dx, l)).
  { intros f r Hr. unfold update_stat, bcast. rewrite map_length, seq_length, Hr, Nat.eqb_refl. cbn [bind].
    unfold lax_select. cbn [fst snd]. rewrite !map_length, combine_length, !map_length, seq_length, Hr, Nat.min_id.
    rewrite Nat.eqb_refl, andb_true_r. destruct (Nat.ltb_spec dx dt) as [H|H].
    - exists (repeat 0%Q n). split; [apply repeat_length|].
      destruct (Nat.eqb_spec dx (Nat.max dx dt)); [lia|reflexivity].
    - rewrite Nat.max_l by exact H. rewrite Nat.eqb_refl.
      destruct b; eexists; (split; [|reflexivity]).
      + rewrite map_length, seq_length. reflexivity.
      + rewrite map_length, combine_length, map_length, seq_length, Hr. apply Nat.min_id. }
  destruct (U (stat_mean xs) rm Hz1) as (l1 & K1 & ->). destruct (U (stat_var xs) rv Hz2) as (l2 & K2 & ->).
  destruct (Nat.ltb_spec dx dt) as [H|H]; [reflexivity|].
  unfold bset, state_set. rewrite D2, Hs1. cbn [as_arrays mapM bind rmap].
  assert (E : tree_eqb arr_seqb
      (structs arr_struct (Node 0 [Leaf (AVec dt rm); Leaf (AVec dt rv)]))
      (structs arr_struct (Node 0 [Leaf (AVec dx l1); Leaf (AVec dx l2)])) = false).
  { simpl. unfold arr_seqb; simpl. destruct (Nat.eqb_spec dt dx); [congruence|]. reflexivity. }
  rewrite E. reflexivity.
Qed.
Print Assumptions C42_dtype.

(** Training on inputs with another number of channels than the running statistics raises, and consumes the state: statistics of one channel are
    broadcast, and refused when they are stored; others do not fit the batch statistics. *)
Theorem C42_training_channels : forall sqrt h s m d b dt rm rv n k dx xs inf,
  first_time_index m <> state_index m -> holds h s m d b dt rm rv -> sized k rm rv -> n <> k ->
  (match inf with Some i => i | None => inference m end) = false ->
  exists h', bn_call sqrt h s m true n dx xs inf = (h', Err (if (k =? 1) && (dt <=? dx) then ValueError else TypeError)) /\
    deref h' s = None.
Proof.
  intros sqrt h s m d b dt rm rv n k dx xs inf Hne (Hd & Hf & Hs) (Hz1 & Hz2) Hnk Hi.
  assert (Hlt : s < length h) by (eapply deref_lt; exact Hd).
  set (d1 := dset d (first_time_index m) (Leaf (ABool false))).
  set (h1 := invalidate (h ++ [Some d1]) s).
  assert (S1 : bset h s (Some (first_time_index m)) (Leaf (ABool false)) = (h1, Ok (length h))).
  { apply bset_ok with (old := Leaf (ABool b)); auto. }
  destruct (replaced_intro h s d1 Hlt) as (_ & L1 & _ & D1 & D2 & D3). fold h1 in L1, D1, D2, D3.
  assert (Hs1 : dget d1 (state_index m) = Some (Node 0 [Leaf (AVec dt rm); Leaf (AVec dt rv)])).
  { unfold d1. rewrite dget_dset, marker_eqb_neq by exact Hne. exact Hs. }
  exists h1. split; [|exact D1].
  unfold bn_call. rewrite Hi. unfold bget at 1, state_get. rewrite Hd, Hf, S1. cbn [negb].
  unfold bget, state_get. rewrite D2, Hs1.
  assert (U : forall f r, length r = k ->
    exists l, length l = n /\ update_stat b (momentum m) dx (map f (seq 0 n)) dt r
      = if (k =? 1) && (dt <=? dx) then Ok (dx, l) else Err TypeError).
  { intros f r Hr. unfold update_stat, bcast. rewrite map_length, seq_length, Hr. destruct (Nat.eqb_spec n k) as [|_]; [congruence|].
    assert (Lu : length (map f (seq 0 n)) = n) by (rewrite map_length; apply seq_length).
    destruct (Nat.eqb_spec k 1) as [K|K]; cbn [andb].
    - destruct r as [|x [|? ?]]; cbn [length] in Hr; try (exfalso; lia).
      assert (E : match map f (seq 0 n) with
                  | [a] => Ok (map ((fun x y => (1 - momentum m) * x + momentum m * y)%Q a) [x])
                  | _ => Ok (map (fun a => ((1 - momentum m) * a + momentum m * x)%Q) (map f (seq 0 n)))
                  end = Ok (map (fun a => ((1 - momentum m) * a + momentum m * x)%Q) (map f (seq 0 n)))).
      { destruct (map f (seq 0 n)) as [|u [|v l]]; [reflexivity|exfalso; cbn in Lu; lia|reflexivity]. }
      assert (E' : match map f (seq 0 n) with
                  | [a] => Ok (map ((fun x y => (1 - momentum m) * x + momentum m * y)%Q a) [x])
                  | _ => match [x] with [b0] => Ok (map (fun a => (fun x y => (1 - momentum m) * x + momentum m * y)%Q a b0) (map f (seq 0 n))) | _ => Err TypeError end
                  end = Ok (map (fun a => ((1 - momentum m) * a + momentum m * x)%Q) (map f (seq 0 n)))) by exact E.
      rewrite E'. cbn [bind]. unfold lax_select. cbn [fst snd]. rewrite !map_length, seq_length, Nat.eqb_refl, andb_true_r.
      destruct (Nat.leb_spec dt dx) as [H|H].
      + rewrite Nat.max_l by exact H. rewrite Nat.eqb_refl. destruct b; eexists; (split; [|reflexivity]); rewrite ?map_length; apply seq_length.
      + exists (repeat 0%Q n). split; [apply repeat_length|]. destruct (Nat.eqb_spec dx (Nat.max dx dt)); [lia|reflexivity].
    - exists (repeat 0%Q n). split; [apply repeat_length|]. unfold lax_select. destruct (map f (seq 0 n)) as [|u [|v l]] eqn:EM; cbn [length] in Lu.
      + destruct r as [|x [|y r]]; cbn [length] in Hr; try (exfalso; lia); reflexivity.
      + cbn [bind fst snd]. rewrite map_length, Hr. cbn [length]. replace (1 =? k) with false by (symmetry; apply Nat.eqb_neq; lia). rewrite andb_false_r. reflexivity.
      + destruct r as [|x [|y r]]; cbn [length] in Hr; try (exfalso; lia); reflexivity. }
  destruct (U (stat_mean xs) rm Hz1) as (l1 & K1 & ->). destruct (U (stat_var xs) rv Hz2) as (l2 & K2 & ->).
  destruct ((k =? 1) && (dt <=? dx)); [|reflexivity].
  unfold bset, state_set. rewrite D2, Hs1. cbn [as_arrays mapM bind rmap].
  assert (E : tree_eqb arr_seqb
      (structs arr_struct (Node 0 [Leaf (AVec dt rm); Leaf (AVec dt rv)]))
      (structs arr_struct (Node 0 [Leaf (AVec dx l1); Leaf (AVec dx l2)])) = false).
  { simpl. unfold arr_seqb; simpl. rewrite K1, Hz1. destruct (Nat.eqb_spec k n); [congruence|]. rewrite andb_false_r. reflexivity. }
  rewrite E. reflexivity.
Qed.
Print Assumptions C42_training_channels.

(** A state made by [State(model)] from the initial values of a new module is as [C42_history] wants it. *)
Theorem C42_fresh : forall h mf ms n ep affine mom inf dt e1 e2, mf <> ms ->
  let '(m, (v1, v2)) := bn_init mf ms n ep affine mom inf dt e1 e2 in
  exists h' s d rm rv,
    state_init (fun a => Ok a) h (Node 0 [Leaf (Idx mf (Some v1)); Leaf (Idx ms (Some v2))]) = (h', Ok s) /\
    holds h' s m d true dt rm rv /\ sized n rm rv /\ good m n.
Proof.
  intros h mf ms n ep affine mom inf dt e1 e2 Hne. unfold bn_init.
  eexists _, (length h), _, (map e1 (seq 0 n)), (map e2 (seq 0 n)). split; [reflexivity|].
  split.
  { split; [apply deref_new|]. cbn [first_time_index state_index]. simpl dset.
    rewrite marker_eqb_neq by exact Hne. simpl. rewrite !marker_eqb_refl, marker_eqb_neq by exact Hne. auto. }
  split; [split; rewrite map_length; apply seq_length|].
  split; [exact Hne|]. split; [reflexivity|]. destruct affine; [right|left; auto].
  exists (repeat 1%Q n), (repeat 0%Q n). rewrite !repeat_length. auto.
Qed.
Print Assumptions C42_fresh.

(** Inference before any training call uses whatever memory [jnp.empty] returned. *)
Theorem C42_uninitialised_inference_refuted : exists m h h' xs,
  holds h 0 m [(MInt 0, Leaf (ABool true)); (MInt 1, stats_val 0 [0%Q] [1%Q])] true 0 [0%Q] [1%Q] /\
  holds h' 0 m [(MInt 0, Leaf (ABool true)); (MInt 1, stats_val 0 [5%Q] [1%Q])] true 0 [5%Q] [1%Q] /\
  snd (bn_call (fun q => q) h 0 m true 1 0 xs (Some true)) <> snd (bn_call (fun q => q) h' 0 m true 1 0 xs (Some true)).
Proof.
  exists (fst (bn_init (MInt 0) (MInt 1) 1 0%Q false (1#2)%Q false 0 (fun _ => 0%Q) (fun _ => 0%Q))).
  exists [Some [(MInt 0, Leaf (ABool true)); (MInt 1, stats_val 0 [0%Q] [1%Q])]].
  exists [Some [(MInt 0, Leaf (ABool true)); (MInt 1, stats_val 0 [5%Q] [1%Q])]].
  exists [[[1%Q]]]. split; [repeat split|]. split; [repeat split|]. vm_compute. discriminate.
Qed.
Print Assumptions C42_uninitialised_inference_refuted.

(** Two training batches (mean 2 and mean 6, then momentum 1/2) with an inference call in between. *)
Example C42_ex :
  let m := fst (bn_init (MInt 0) (MInt 1) 1 1%Q true (1#2)%Q false 0 (fun _ => 0%Q) (fun _ => 0%Q)) in
  let h := [Some [(MInt 0, Leaf (ABool true)); (MInt 1, stats_val 0 [77%Q] [88%Q])]] in
  exists h' s' d rm rv,
    bn_run (fun q => q) h 0 m 1 0 [(false, [[[1%Q]]; [[3%Q]]]); (true, [[[9%Q]]]); (false, [[[6%Q]]; [[6%Q]]])] = (h', Ok s') /\
    holds h' s' m d false 0 [rm] [rv] /\ (rm == 4)%Q /\ (rv == 1 # 2)%Q.
Proof.
  cbv zeta. eexists _, 4, _, _, _. split; [vm_compute; reflexivity|].
  split; [repeat split; vm_compute; reflexivity|]. split; vm_compute; reflexivity.
Qed.
