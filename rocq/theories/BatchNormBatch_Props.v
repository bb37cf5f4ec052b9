(** C117: BatchNorm and the batch. *)
From Coq Require Import Permutation Qfield Lqa.
From Verif Require Import State_Proofs BatchNorm_Model BatchNorm_Props.
Local Open Scope nat_scope.
Local Open Scope list_scope.

(** Weight and bias of a channel. *)
Definition gamma (m : bn) (c : nat) : Q := match weight m, bias m with Some w, Some _ => nth c w 0%Q | _, _ => 1%Q end.
Definition beta (m : bn) (c : nat) : Q := match weight m, bias m with Some _, Some b => nth c b 0%Q | _, _ => 0%Q end.
Definition training (m : bn) (inf : option bool) : Prop := (match inf with Some i => i | None => inference m end) = false.
(** A batch of at least one example, with at least one entry in the channel. *)
Definition filled (xs : list example) (c : nat) : Prop := xs <> [] /\ forall x, In x xs -> nth c x [] <> [].

(** ** Sums *)
Lemma Qplus_swap a b c : (a + (b + c) = b + (a + c))%Q.
Proof.
  destruct a as [a1 a2], b as [b1 b2], c as [c1 c2]. unfold Qplus. cbn [Qnum Qden]. f_equal; [rewrite !Pos2Z.inj_mul; ring|].
  rewrite !Pos.mul_assoc. f_equal. apply Pos.mul_comm.
Qed.
Lemma qsum_perm l l' : Permutation l l' -> qsum l = qsum l'.
Proof. induction 1; cbn [qsum]; [reflexivity|congruence|apply Qplus_swap|congruence]. Qed.
Lemma qmean_perm l l' : Permutation l l' -> qmean l = qmean l'.
Proof. intros H. unfold qmean. rewrite (qsum_perm _ _ H), (Permutation_length H). reflexivity. Qed.
Lemma stat_mean_perm xs xs' c : Permutation xs xs' -> stat_mean xs c = stat_mean xs' c.
Proof. intros H. unfold stat_mean, chan. apply qmean_perm, Permutation_map, Permutation_map, H. Qed.
Lemma stat_var_perm xs xs' c : Permutation xs xs' -> stat_var xs c = stat_var xs' c.
Proof.
  intros H. unfold stat_var. rewrite (stat_mean_perm xs xs' c H). cbv zeta.
  assert (E : forall f : list Q -> Q, qmean (map f (chan xs c)) = qmean (map f (chan xs' c))) by (intros f; apply qmean_perm, Permutation_map, Permutation_map, H).
  rewrite E. reflexivity.
Qed.
Lemma qsum_affine {A} (f g : A -> Q) a b l : (forall x, In x l -> f x == a * g x + b)%Q ->
  (qsum (map f l) == a * qsum (map g l) + b * inject_Z (Z.of_nat (length l)))%Q.
Proof.
  induction l as [|x l IH]; intros H; [cbn; ring|]. cbn [map qsum length]. rewrite (H x) by (left; reflexivity). rewrite IH by (intros; apply H; right; assumption).
  rewrite Nat2Z.inj_succ, <- Z.add_1_r, inject_Z_plus. change (inject_Z 1) with 1%Q. ring.
Qed.
Lemma qmean_affine {A} (f g : A -> Q) a b l : l <> [] -> (forall x, In x l -> f x == a * g x + b)%Q -> (qmean (map f l) == a * qmean (map g l) + b)%Q.
Proof.
  intros Hl H. unfold qmean. rewrite !map_length, (qsum_affine f g a b l H). field. intros E. unfold Qeq, inject_Z in E. cbn in E. destruct l; [contradiction|cbn in E; lia].
Qed.

(** ** Moments of what comes out *)
Lemma mean_of_map ys xs c (k : Q -> Q) a b : filled xs c -> ys = map (fun x => map k (nth c x [])) xs ->
  (forall y, k y == a * y + b)%Q -> (qmean (map qmean ys) == a * mean_of xs c + b)%Q.
Proof.
  intros [Hx Hc] -> Hk. rewrite map_map. unfold mean_of. apply qmean_affine; [exact Hx|]. intros x Hin.
  rewrite <- (map_id (nth c x [])) at 2. apply qmean_affine; [apply Hc; exact Hin|]. intros y _. apply Hk.
Qed.
Lemma norm_affine sqrt m n rm rv xs ys c : c < n -> normalised sqrt m n rm rv xs ys ->
  exists k, map (fun x => nth c x []) ys = map (fun x => map k (nth c x [])) xs /\
    forall y, (k y == gamma m c / sqrt (nth c rv 0 + eps m) * y + (beta m c - gamma m c * nth c rm 0 / sqrt (nth c rv 0 + eps m)))%Q.
Proof.
  intros Hc ->.
  exists (fun y => let z := ((y - nth c rm 0) / sqrt (nth c rv 0 + eps m))%Q in match weight m, bias m with Some w, Some b => (z * nth c w 0 + nth c b 0)%Q | _, _ => z end).
  split.
  - rewrite map_map. apply map_ext. intros x. rewrite (nth_indep _ [] (map (fun y => let z := ((y - nth 0 rm 0) / sqrt (nth 0 rv 0 + eps m))%Q in match weight m, bias m with Some w, Some b => (z * nth 0 w 0 + nth 0 b 0)%Q | _, _ => z end) (nth 0 x [])))
      by (rewrite map_length, seq_length; exact Hc).
    rewrite (map_nth (fun c => map (fun y => let z := ((y - nth c rm 0) / sqrt (nth c rv 0 + eps m))%Q in match weight m, bias m with Some w, Some b => (z * nth c w 0 + nth c b 0)%Q | _, _ => z end) (nth c x [])) (seq 0 n) 0 c).
    rewrite seq_nth by exact Hc. reflexivity.
  - intros y. unfold gamma, beta. destruct (weight m), (bias m); unfold Qdiv; ring.
Qed.

(** C117. With statistics [rm], [rv] the output's mean and variance over the batch, in each channel. *)
Theorem C117_moments : forall sqrt m n rm rv xs ys c, c < n -> filled xs c -> normalised sqrt m n rm rv xs ys ->
  (mean_of ys c == (mean_of xs c - nth c rm 0) / sqrt (nth c rv 0 + eps m) * gamma m c + beta m c)%Q /\
  (var_of ys c == var_of xs c * (gamma m c / sqrt (nth c rv 0 + eps m)) * (gamma m c / sqrt (nth c rv 0 + eps m)))%Q.
Proof.
  intros sqrt m n rm rv xs ys c Hc Hf Hn. destruct (norm_affine sqrt m n rm rv xs ys c Hc Hn) as (k & E & Hk).
  set (a := (gamma m c / sqrt (nth c rv 0 + eps m))%Q) in *. set (b := (beta m c - gamma m c * nth c rm 0 / sqrt (nth c rv 0 + eps m))%Q) in *.
  assert (M : (mean_of ys c == a * mean_of xs c + b)%Q).
  { pose proof (mean_of_map _ xs c k a b Hf E Hk) as H. rewrite map_map in H. exact H. }
  split.
  - rewrite M. subst a b. unfold Qdiv. ring.
  - unfold var_of at 1.
    assert (G : map (fun x => qmean (map (fun y => (y - mean_of ys c) * (y - mean_of ys c))%Q (nth c x []))) ys
              = map (fun x => qmean (map (fun y => (k y - mean_of ys c) * (k y - mean_of ys c))%Q (nth c x []))) xs).
    { transitivity (map (fun l => qmean (map (fun y => (y - mean_of ys c) * (y - mean_of ys c))%Q l)) (map (fun x => nth c x []) ys)); [rewrite map_map; reflexivity|].
      rewrite E, map_map. apply map_ext. intros x. rewrite map_map. reflexivity. }
    rewrite G. unfold var_of. destruct Hf as [Hx Hin]. transitivity (a * a * qmean (map (fun x => qmean (map (fun y => (y - mean_of xs c) * (y - mean_of xs c))%Q (nth c x []))) xs) + 0)%Q; [|ring].
    apply qmean_affine; [exact Hx|]. intros x Hi. apply qmean_affine; [apply Hin; exact Hi|]. intros y _. rewrite (Hk y), M. ring.
Qed.

(** C117. The first training call standardises the batch: in every channel the output's mean is the bias, its variance the square of the weight times
    [v / (v + eps)]. *)
Theorem C117_first : forall sqrt h s m d dt rm rv n xs inf, good m n -> holds h s m d true dt rm rv -> sized n rm rv -> training m inf ->
  exists h' s' ys, bn_call sqrt h s m true n dt xs inf = (h', Ok (ys, s')) /\
  forall c, c < n -> filled xs c -> (sqrt (var_of xs c + eps m) * sqrt (var_of xs c + eps m) == var_of xs c + eps m)%Q -> (0 < var_of xs c + eps m)%Q ->
  (mean_of ys c == beta m c)%Q /\ (var_of ys c == gamma m c * gamma m c * (var_of xs c / (var_of xs c + eps m)))%Q.
Proof.
  intros sqrt h s m d dt rm rv n xs inf Hg Hh Hz Hi.
  destruct (C42_training sqrt h s m d true dt rm rv n xs inf Hg Hh Hz Hi) as (h' & s' & d' & rm' & rv' & ys & E & _ & _ & Em & Ev & _ & _ & _ & _ & Hn).
  exists h', s', ys. split; [exact E|]. intros c Hc Hf Hs Hp. destruct (C117_moments sqrt m n rm' rv' xs ys c Hc Hf Hn) as [M V].
  assert (Rm : nth c rm' 0%Q = mean_of xs c).
  { rewrite Em. rewrite (nth_indep _ 0%Q (next true (momentum m) (mean_of xs) (fun c => nth c rm 0%Q) 0)) by (rewrite map_length, seq_length; exact Hc).
    rewrite (map_nth (next true (momentum m) (mean_of xs) (fun c => nth c rm 0%Q)) (seq 0 n) 0 c), seq_nth by exact Hc. reflexivity. }
  assert (Rv : nth c rv' 0%Q = var_of xs c).
  { rewrite Ev. rewrite (nth_indep _ 0%Q (next true (momentum m) (var_of xs) (fun c => nth c rv 0%Q) 0)) by (rewrite map_length, seq_length; exact Hc).
    rewrite (map_nth (next true (momentum m) (var_of xs) (fun c => nth c rv 0%Q)) (seq 0 n) 0 c), seq_nth by exact Hc. reflexivity. }
  rewrite Rm, Rv in M. rewrite Rv in V. split.
  - rewrite M. unfold Qdiv. ring.
  - rewrite V. set (r := sqrt (var_of xs c + eps m)%Q) in *. set (u := (var_of xs c + eps m)%Q) in *. rewrite <- Hs. field.
    intros Z. rewrite Z in Hs. rewrite <- Hs in Hp. apply (Qlt_irrefl 0). exact Hp.
Qed.

(** C117. A training step with the batch of the first one again leaves the running statistics as they are. *)
Theorem C117_repeated : forall sqrt h s m d dt rm rv n xs inf, good m n -> holds h s m d true dt rm rv -> sized n rm rv -> training m inf ->
  exists h1 s1 ys1 d1 rm1 rv1 h2 s2 ys2 d2 rm2 rv2,
    bn_call sqrt h s m true n dt xs inf = (h1, Ok (ys1, s1)) /\ holds h1 s1 m d1 false dt rm1 rv1 /\
    bn_call sqrt h1 s1 m true n dt xs inf = (h2, Ok (ys2, s2)) /\ holds h2 s2 m d2 false dt rm2 rv2 /\
    Forall2 Qeq rm2 rm1 /\ Forall2 Qeq rv2 rv1.
Proof.
  intros sqrt h s m d dt rm rv n xs inf Hg Hh Hz Hi.
  destruct (C42_training sqrt h s m d true dt rm rv n xs inf Hg Hh Hz Hi) as (h1 & s1 & d1 & rm1 & rv1 & ys1 & E1 & H1 & Z1 & Em1 & Ev1 & _).
  destruct (C42_training sqrt h1 s1 m d1 false dt rm1 rv1 n xs inf Hg H1 Z1 Hi) as (h2 & s2 & d2 & rm2 & rv2 & ys2 & E2 & H2 & Z2 & Em2 & Ev2 & _).
  exists h1, s1, ys1, d1, rm1, rv1, h2, s2, ys2, d2, rm2, rv2. repeat (split; [assumption|]).
  assert (G : forall (r1 r2 : list Q) (f g : nat -> Q), r1 = map (next true (momentum m) f g) (seq 0 n) -> r2 = map (next false (momentum m) f (fun c => nth c r1 0%Q)) (seq 0 n) -> Forall2 Qeq r2 r1).
  { intros r1 r2 f g -> ->. assert (K : forall l, (forall c, In c l -> c < n) -> Forall2 Qeq (map (next false (momentum m) f (fun c => nth c (map (next true (momentum m) f g) (seq 0 n)) 0%Q)) l) (map (next true (momentum m) f g) l)).
    { induction l as [|c l IH]; intros Hl; cbn [map]; constructor; [|apply IH; intros; apply Hl; right; assumption]. unfold next at 1 3.
      rewrite (nth_indep _ 0%Q (next true (momentum m) f g 0)) by (rewrite map_length, seq_length; apply Hl; left; reflexivity).
      rewrite (map_nth (next true (momentum m) f g) (seq 0 n) 0 c), seq_nth by (apply Hl; left; reflexivity). unfold next. cbn [plus]. ring. }
    apply K. intros c Hc. apply in_seq in Hc. lia. }
  split; eapply G; eassumption.
Qed.

(** C117. The order of the examples does not matter: in any call (training or inference, errors included) the new state is the same, and every
    example's output goes with it. *)
Theorem C117_order : forall sqrt h s m axis n dx xs xs' inf, Permutation xs xs' ->
  let r := bn_call sqrt h s m axis n dx xs inf in
  let r' := bn_call sqrt h s m axis n dx xs' inf in
  fst r = fst r' /\
  match snd r, snd r' with
  | Ok (ys, s1), Ok (ys', s1') => s1 = s1' /\ exists g, ys = map g xs /\ ys' = map g xs'
  | Err e, Err e' => e = e'
  | _, _ => False
  end.
Proof.
  intros sqrt h s m axis n dx xs xs' inf HP. unfold bn_call. cbv zeta.
  assert (Em : map (stat_mean xs) (seq 0 n) = map (stat_mean xs') (seq 0 n)) by (apply map_ext; intros c; apply stat_mean_perm; exact HP).
  assert (Ev : map (stat_var xs) (seq 0 n) = map (stat_var xs') (seq 0 n)) by (apply map_ext; intros c; apply stat_var_perm; exact HP).
  rewrite Em, Ev. clear Em Ev.
  assert (N : forall rm rv (s2 : nat), match (out <- normalise sqrt m n xs rm rv ;; Ok (out, s2)), (out <- normalise sqrt m n xs' rm rv ;; Ok (out, s2)) with
    | Ok (ys, s1), Ok (ys', s1') => s1 = s1' /\ exists g, ys = map g xs /\ ys' = map g xs'
    | Err e, Err e' => e = e'
    | _, _ => False
    end).
  { intros rm rv s2. unfold normalise. destruct (sizes_ok m n rm rv); cbn [bind]; [|reflexivity]. split; [reflexivity|]. eexists. split; reflexivity. }
  destruct (match inf with Some b => b | None => inference m end).
  - cbn [fst snd]. split; [reflexivity|]. destruct (bget h s (Some (state_index m))) as [r|e]; cbn [bind]; [|reflexivity].
    destruct r as [a| |k [|[[|? rm]| |] [|[[|? rv]| |] [|]]]]; try reflexivity. apply N.
  - destruct (bget h s (Some (first_time_index m))) as [ft|e]; [|cbn; auto].
    destruct (bset h s (Some (first_time_index m)) (Leaf (ABool false))) as [h1 [s1|e]]; [|cbn; auto].
    destruct (negb axis); [cbn; auto|]. destruct ft as [[first|]| |].
    2-4: destruct (bget h1 s1 (Some (state_index m))); cbn; auto.
    destruct (bget h1 s1 (Some (state_index m))) as [r|e]; [|cbn; auto].
    destruct r as [a| |k [|[[|d1 rm]| |] [|[[|d2 rv]| |] [|]]]]; try (cbn; auto; fail).
    destruct (update_stat first (momentum m) dx (map (stat_mean xs') (seq 0 n)) d1 rm) as [[e1 rm']|e];
      destruct (update_stat first (momentum m) dx (map (stat_var xs') (seq 0 n)) d2 rv) as [[e2 rv']|e']; try (cbn; auto; fail).
    destruct (bset h1 s1 (Some (state_index m)) (Node k [Leaf (AVec e1 rm'); Leaf (AVec e2 rv')])) as [h2 [s2|e]]; [|cbn; auto].
    cbn [fst snd]. split; [reflexivity|]. apply N.
Qed.

(** C117. In inference mode examples do not influence each other. *)
Theorem C117_inference : forall sqrt h s m d b dt rm rv axis n dx xs xs' inf, good m n -> holds h s m d b dt rm rv -> sized n rm rv ->
  (match inf with Some i => i | None => inference m end) = true ->
  exists ys ys', bn_call sqrt h s m axis n dx xs inf = (h, Ok (ys, s)) /\ bn_call sqrt h s m axis n dx xs' inf = (h, Ok (ys', s)) /\
    bn_call sqrt h s m axis n dx (xs ++ xs') inf = (h, Ok (ys ++ ys', s)).
Proof.
  intros sqrt h s m d b dt rm rv axis n dx xs xs' inf Hg Hh Hz Hi.
  destruct (C42_inference sqrt h s m d b dt rm rv axis n dx xs inf Hg Hh Hz Hi) as (ys & E & N).
  destruct (C42_inference sqrt h s m d b dt rm rv axis n dx xs' inf Hg Hh Hz Hi) as (ys' & E' & N').
  destruct (C42_inference sqrt h s m d b dt rm rv axis n dx (xs ++ xs') inf Hg Hh Hz Hi) as (zs & E2 & N2).
  exists ys, ys'. split; [exact E|]. split; [exact E'|]. rewrite E2. unfold normalised in *. subst. rewrite map_app. reflexivity.
Qed.

(** ** Witnesses: one channel, no weight, momentum 1/2, [eps] 0 and a function that is a square root of 1. *)
Definition w_bn : bn := {| weight := None; bias := None; first_time_index := MInt 0; state_index := MInt 1; input_size := 1; eps := 0; momentum := 1 # 2; inference := false |}.
Definition w_heap (first : bool) (mean var : Q) : bheap := [Some [(MInt 0, Leaf (ABool first)); (MInt 1, stats_val 32 [mean] [var])]].
(** C117. Later training calls do not standardise: batches are normalised with the running statistics. *)
Theorem C117_later_refuted : exists h s m n dt xs h' s' ys,
  good m n /\ (exists d rm rv, holds h s m d false dt rm rv /\ sized n rm rv) /\ filled xs 0 /\
  bn_call (fun q => q) h s m true n dt xs (Some false) = (h', Ok (ys, s')) /\ ~ (mean_of ys 0 == 0)%Q.
Proof.
  exists (w_heap false 0 1), 0, w_bn, 1, 32, [[[2%Q]]; [[4%Q]]]. do 3 eexists. split; [split; [discriminate|split; [reflexivity|left; split; reflexivity]]|].
  split; [do 3 eexists; split; [split; [reflexivity|split; reflexivity]|split; reflexivity]|].
  split; [split; [discriminate|intros x [<-|[<-|[]]]; discriminate]|]. split; [vm_compute; reflexivity|]. vm_compute. discriminate.
Qed.
(** C117. In training the output for an example depends on the others. *)
Theorem C117_training_examples_refuted : exists h s m n dt x xs xs' y ys y' ys' h1 s1 h2 s2,
  bn_call (fun q => q) h s m true n dt (x :: xs) (Some false) = (h1, Ok (y :: ys, s1)) /\
  bn_call (fun q => q) h s m true n dt (x :: xs') (Some false) = (h2, Ok (y' :: ys', s2)) /\ ~ Forall2 (Forall2 Qeq) y y'.
Proof.
  exists (w_heap true 0 1), 0, w_bn, 1, 32, [[2%Q]], [[[4%Q]]], [[[0%Q]]]. do 8 eexists. split; [vm_compute; reflexivity|]. split; [vm_compute; reflexivity|].
  intros H. inversion H as [|? ? ? ? H1 _]; subst. inversion H1 as [|? ? ? ? H2 _]; subst. vm_compute in H2. discriminate.
Qed.
Print Assumptions C117_moments.
Print Assumptions C117_first.
Print Assumptions C117_repeated.
Print Assumptions C117_order.
Print Assumptions C117_inference.
Print Assumptions C117_later_refuted.
Print Assumptions C117_training_examples_refuted.

Example C117_ex : exists h' s', bn_call (fun q => q) (w_heap true 0 1) 0 w_bn true 1 32 [[[2%Q]]; [[4%Q]]] (Some false) = (h', Ok ([[[-64 # 64]]; [[64 # 64]]], s')) /\
  (mean_of [[[-64 # 64]]; [[64 # 64]]] 0 == 0)%Q /\ (var_of [[[-64 # 64]]; [[64 # 64]]] 0 == 1)%Q.
Proof. do 2 eexists. split; [vm_compute; reflexivity|]. split; vm_compute; reflexivity. Qed.
