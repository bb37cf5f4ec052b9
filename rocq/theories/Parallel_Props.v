(** C129: no deleted buffer is used in the parallelism example. *)
From Coq Require Import Lia.
From Verif Require Import Base Parallel_Model DataLoader_Model DataLoader_Props.
Local Open Scope nat_scope.
Local Open Scope list_scope.
Local Notation length := List.length.

(** What is not an array, and where arrays are. *)
Definition skeleton (t : list leaf) : list (option nat) := map (fun l => match l with Buf _ => None | Static n => Some n end) t.
(** The arrays of [t] may be used. *)
Definition usable (m : memory) (t : list leaf) : Prop := forall b, In b (bufs t) -> b < next m /\ ~ In b (dead m).
Definition sound (m : memory) : Prop := forall b, In b (dead m) -> b < next m.

Lemma bufs_app t u : bufs (t ++ u) = bufs t ++ bufs u.
Proof. apply flat_map_app. Qed.
Lemma existsb_eqb l b : existsb (Nat.eqb b) l = true <-> In b l.
Proof. rewrite existsb_exists. split; [intros (x & H & E); apply Nat.eqb_eq in E; subst; exact H|intros H; exists b; split; [exact H|apply Nat.eqb_refl]]. Qed.
Lemma is_dead_iff m b : is_dead m b = true <-> In b (dead m).
Proof. apply existsb_eqb. Qed.
Lemma repeats_iff l : repeats l = false <-> NoDup l.
Proof.
  induction l as [|b l IH]; cbn [repeats]; [split; [constructor|reflexivity]|]. unfold occurs. rewrite Bool.orb_false_iff, IH, NoDup_cons_iff. split; intros [H1 H2]; (split; [|exact H2]).
  - intros I. apply existsb_eqb in I. congruence.
  - destruct (existsb (Nat.eqb b) l) eqn:E; [|reflexivity]. apply existsb_eqb in E. contradiction.
Qed.
Lemma place_eqb_iff p q : place_eqb p q = true <-> p = q.
Proof. destruct p, q; cbn; split; congruence. Qed.
Lemma existsb_false {A} (f : A -> bool) l : existsb f l = false <-> forall x, In x l -> f x = false.
Proof.
  split; [intros H x I; destruct (f x) eqn:E; [|reflexivity]; rewrite <- H; symmetry; apply existsb_exists; eauto|].
  intros H. destruct (existsb f l) eqn:E; [|reflexivity]. apply existsb_exists in E as (x & I & F). rewrite (H x I) in F. discriminate.
Qed.

(** A compiled function runs exactly if no buffer is deleted and none is donated and given once more. *)
Lemma call_iff taken d k m : (exists m', call taken d k m = Ok m') <->
  (forall b, In b (bufs d ++ bufs k) -> ~ In b (dead m)) /\ NoDup (bufs d) /\ (forall b, In b (bufs d) -> ~ In b (bufs k)).
Proof.
  unfold call. destruct (existsb (is_dead m) (bufs d ++ bufs k)) eqn:E.
  { split; [intros [m' H]; discriminate|]. intros (H & _). apply existsb_exists in E as (b & I & D). apply is_dead_iff in D. exfalso. exact (H b I D). }
  destruct (repeats (bufs d)) eqn:R; cbn [orb].
  { split; [intros [m' H]; discriminate|]. intros (_ & H & _). apply repeats_iff in H. congruence. }
  apply repeats_iff in R. destruct (existsb (occurs (bufs k)) (bufs d)) eqn:O.
  { split; [intros [m' H]; discriminate|]. intros (_ & _ & H). apply existsb_exists in O as (b & I & D). apply existsb_eqb in D. exfalso. exact (H b I D). }
  split; [|eauto]. intros _. rewrite existsb_false in E, O. split; [|split; [exact R|]].
  - intros b I D. apply is_dead_iff in D. rewrite (E b I) in D. discriminate.
  - intros b I D. apply existsb_eqb in D. unfold occurs in O. rewrite (O b I) in D. discriminate.
Qed.
Lemma call_ok taken d k m : (forall b, In b (bufs d ++ bufs k) -> ~ In b (dead m)) -> NoDup (bufs d) -> (forall b, In b (bufs d) -> ~ In b (bufs k)) ->
  call taken d k m = Ok (mk_memory (next m) (List.filter taken (bufs d) ++ dead m) (where_ m)).
Proof.
  intros H1 H2 H3. destruct (proj2 (call_iff taken d k m) (conj H1 (conj H2 H3))) as [m' E]. rewrite E. unfold call in E.
  destruct (existsb (is_dead m) (bufs d ++ bufs k)); [discriminate|]. destruct (repeats (bufs d) || existsb (occurs (bufs k)) (bufs d)); [discriminate|]. symmetry. exact E.
Qed.
Lemma results_ok p t : forall m, let n := length (bufs t) in
  bufs (fst (results p t m)) = seq (next m) n /\ skeleton (fst (results p t m)) = skeleton t /\
  next (snd (results p t m)) = next m + n /\ dead (snd (results p t m)) = dead m /\
  (forall b, where_ (snd (results p t m)) b = if (next m <=? b) && (b <? next m + n) then p else where_ m b).
Proof.
  induction t as [|[b|s] t IH]; intros m; cbn [results bufs flat_map app length].
  - cbn [fst snd seq]. rewrite Nat.add_0_r. repeat split. intros b. destruct (Nat.leb_spec (next m) b), (Nat.ltb_spec b (next m)); try reflexivity; lia.
  - cbn [alloc]. set (m1 := mk_memory _ _ _). specialize (IH m1). fold (bufs t). destruct (results p t m1) as [t' m'] eqn:E. cbn [fst snd] in *. destruct IH as (I1 & I2 & I3 & I4 & I5).
    cbn [m1 next dead where_] in *. cbn [bufs flat_map app skeleton map seq]. fold (bufs t') (skeleton t') (skeleton t). rewrite I1, I2, I3, I4. repeat split; [lia|].
    intros b'. rewrite I5. destruct (Nat.leb_spec (S (next m)) b'), (Nat.ltb_spec b' (S (next m) + length (bufs t))), (Nat.leb_spec (next m) b'), (Nat.ltb_spec b' (next m + S (length (bufs t)))), (Nat.eqb_spec b' (next m)); cbn; try reflexivity; lia.
  - specialize (IH m). fold (bufs t). destruct (results p t m) as [t' m'] eqn:E. cbn [fst snd] in *. destruct IH as (I1 & I2 & I3 & I4 & I5). cbn [bufs flat_map app skeleton map]. fold (bufs t') (skeleton t') (skeleton t). rewrite I1, I2, I3, I4. repeat split. exact I5.
Qed.
Lemma shard_ok p t : forall m, usable m t -> exists t' m', shard p t m = Ok (t', m') /\ skeleton t' = skeleton t /\ dead m' = dead m /\ next m <= next m' /\
  (forall b, b < next m -> where_ m' b = where_ m b) /\ (forall b, In b (bufs t') -> where_ m' b = p) /\
  (forall b, In b (bufs t') -> (In b (bufs t) /\ where_ m b = p) \/ next m <= b < next m') /\ (NoDup (bufs t) -> NoDup (bufs t')).
Proof.
  induction t as [|[b|s] t IH]; intros m U; cbn [shard].
  - exists [], m. repeat split; auto; try lia; intros b [].
  - assert (Ub : b < next m /\ ~ In b (dead m)) by (apply U; left; reflexivity). destruct Ub as [Lb Db].
    destruct (is_dead m b) eqn:D; [apply is_dead_iff in D; contradiction|].
    destruct (place_eqb (where_ m b) p) eqn:P.
    + apply place_eqb_iff in P. destruct (IH m) as (t' & m' & E & I1 & I2 & I3 & I4 & I5 & I6 & I7); [intros x Hx; apply U; right; exact Hx|].
      rewrite E. cbn [bind]. exists (Buf b :: t'), m'. split; [reflexivity|]. cbn [skeleton map bufs flat_map app]. fold (skeleton t') (skeleton t) (bufs t') (bufs t). rewrite I1. split; [reflexivity|].
      split; [exact I2|]. split; [exact I3|]. split; [exact I4|]. split; [intros x [<-|Hx]; [rewrite I4 by exact Lb; exact P|apply I5; exact Hx]|].
      split; [intros x [<-|Hx]; [left; split; [left; reflexivity|exact P]|destruct (I6 x Hx) as [[A B]|A]; [left; split; [right; exact A|exact B]|right; exact A]]|].
      intros N. apply NoDup_cons_iff in N as [N1 N2]. constructor; [|apply I7; exact N2]. intros Hx. destruct (I6 b Hx) as [[A _]|A]; [contradiction|lia].
    + cbn [alloc]. set (m1 := mk_memory _ _ _). destruct (IH m1) as (t' & m' & E & I1 & I2 & I3 & I4 & I5 & I6 & I7).
      { intros x Hx. cbn [m1 next dead]. destruct (U x) as [A B]; [right; exact Hx|]. split; [lia|exact B]. }
      rewrite E. cbn [bind]. exists (Buf (next m) :: t'), m'. cbn [m1 next dead where_] in *. split; [reflexivity|]. cbn [skeleton map bufs flat_map app]. fold (skeleton t') (skeleton t) (bufs t') (bufs t). rewrite I1. split; [reflexivity|].
      split; [exact I2|]. split; [lia|]. assert (W : forall x, x < next m -> where_ m' x = where_ m x).
      { intros x Hx. rewrite I4 by lia. destruct (Nat.eqb_spec x (next m)); [lia|reflexivity]. }
      split; [exact W|]. split; [intros x [<-|Hx]; [rewrite I4 by lia; rewrite Nat.eqb_refl; reflexivity|apply I5; exact Hx]|].
      assert (R : forall x, In x (bufs t') -> (In x (bufs t) /\ where_ m x = p) \/ S (next m) <= x < next m').
      { intros x Hx. destruct (I6 x Hx) as [[A B]|A]; [left; split; [exact A|]|right; exact A]. destruct (U x) as [A2 _]; [right; exact A|]. destruct (Nat.eqb_spec x (next m)); [lia|exact B]. }
      split; [intros x [<-|Hx]; [right; lia|destruct (R x Hx) as [[A B]|A]; [left; split; [right; exact A|exact B]|right; lia]]|].
      intros N. apply NoDup_cons_iff in N as [N1 N2]. constructor; [|apply I7; exact N2]. intros Hx. destruct (R _ Hx) as [[A _]|A]; [|lia]. destruct (U (next m)) as [A2 _]; [right; exact A|lia].
  - destruct (IH m) as (t' & m' & E & I1 & I2 & I3 & I4 & I5 & I6 & I7); [exact U|]. rewrite E. cbn [bind]. exists (Static s :: t'), m'. split; [reflexivity|].
    cbn [skeleton map bufs flat_map app]. fold (skeleton t') (skeleton t) (bufs t') (bufs t). rewrite I1. repeat split; assumption.
Qed.

Section Params.
  Variable devices : nat.
  Variable taken : nat -> bool.
  Local Notation divides r := (r mod devices = 0).

  Lemma train_step_ok model opt xy m : sound m -> usable m (model ++ opt ++ xy) -> NoDup (bufs (model ++ opt ++ xy)) ->
    exists model' opt' m', train_step taken model opt xy m = Ok (model', opt', m') /\ skeleton model' = skeleton model /\ skeleton opt' = skeleton opt /\ sound m' /\
      usable m' (model' ++ opt') /\ NoDup (bufs (model' ++ opt')) /\ (forall b, In b (bufs (model' ++ opt')) -> next m <= b /\ where_ m' b = Replicated) /\
      next m <= next m' /\ (forall b, In b (dead m') <-> In b (dead m) \/ In b (bufs (model ++ opt ++ xy)) /\ taken b = true).
  Proof.
    intros Sd U N. unfold train_step. rewrite call_ok; [|rewrite app_nil_r; intros b Hb; apply U; exact Hb|exact N|intros b _ []]. cbn [bind]. set (m1 := mk_memory _ _ _).
    pose proof (results_ok Replicated model m1) as R1. destruct (results Replicated model m1) as [model' m2]. cbn [fst snd] in R1. destruct R1 as (A1 & A2 & A3 & A4 & A5).
    pose proof (results_ok Replicated opt m2) as R2. destruct (results Replicated opt m2) as [opt' m3]. cbn [fst snd] in R2. destruct R2 as (B1 & B2 & B3 & B4 & B5).
    exists model', opt', m3. cbn [m1 next dead where_] in *. split; [reflexivity|]. split; [exact A2|]. split; [exact B2|].
    assert (D : forall b, In b (dead m3) <-> In b (dead m) \/ In b (bufs (model ++ opt ++ xy)) /\ taken b = true).
    { intros b. rewrite B4, A4, in_app_iff, filter_In. tauto. }
    assert (Lt : forall b, In b (dead m3) -> b < next m) by (intros b Hb; apply D in Hb as [Hb|[Hb _]]; [apply Sd; exact Hb|apply U; exact Hb]).
    assert (E : bufs (model' ++ opt') = seq (next m) (length (bufs model) + length (bufs opt))) by (rewrite bufs_app, A1, B1, A3, seq_app; reflexivity).
    split; [intros b Hb; apply Lt in Hb; lia|]. split; [intros b Hb; rewrite E in Hb; apply in_seq in Hb; split; [lia|intros X; apply Lt in X; lia]|].
    split; [rewrite E; apply seq_NoDup|]. split; [|split; [lia|exact D]].
    intros b Hb. rewrite E in Hb. apply in_seq in Hb. split; [lia|]. rewrite B5, A3, A5. destruct (Nat.leb_spec (next m + length (bufs model)) b), (Nat.ltb_spec b (next m + length (bufs model) + length (bufs opt))), (Nat.leb_spec (next m) b), (Nat.ltb_spec b (next m + length (bufs model))); cbn; try reflexivity; lia.
  Qed.
  Lemma shard_batch_ok rows m : divides rows -> exists m', shard_batch devices rows m = Ok ([Buf (next m); Buf (S (next m))], m') /\ next m' = next m + 2 /\ dead m' = dead m.
  Proof. intros H. unfold shard_batch. rewrite H. cbn. eexists. split; [reflexivity|]. cbn. split; [lia|reflexivity]. Qed.
  Lemma train_ok : forall batches model opt m, sound m -> usable m (model ++ opt) -> NoDup (bufs (model ++ opt)) -> Forall (fun r => divides r) batches ->
    exists model' opt' m', train devices taken batches model opt m = Ok (model', opt', m') /\ skeleton model' = skeleton model /\ skeleton opt' = skeleton opt /\ sound m' /\
      usable m' (model' ++ opt') /\ NoDup (bufs (model' ++ opt')) /\ next m <= next m' /\
      (batches <> [] -> forall b, In b (bufs (model' ++ opt')) -> next m <= b /\ where_ m' b = Replicated) /\
      (forall b, b < next m -> (In b (dead m') <-> In b (dead m) \/ batches <> [] /\ In b (bufs (model ++ opt)) /\ taken b = true)).
  Proof.
    induction batches as [|r bs IH]; intros model opt m Sd U N F.
    - cbn [train]. exists model, opt, m. do 6 (split; [try reflexivity; assumption|]). split; [lia|]. split; [congruence|]. intros b _. split; [tauto|intros [H|[H _]]; congruence].
    - apply Forall_cons_iff in F as [Fr Fs]. cbn [train]. destruct (shard_batch_ok r m Fr) as (m1 & E1 & Nx & Dd). rewrite E1. cbn [bind].
      assert (Bx : bufs (model ++ opt ++ [Buf (next m); Buf (S (next m))]) = bufs (model ++ opt) ++ [next m; S (next m)]) by (rewrite app_assoc, bufs_app; reflexivity).
      destruct (train_step_ok model opt [Buf (next m); Buf (S (next m))] m1) as (mo & op & m2 & E2 & K1 & K2 & S2 & U2 & N2 & P2 & L2 & D2).
      + intros b Hb. rewrite Dd in Hb. apply Sd in Hb. lia.
      + intros b Hb. rewrite Bx in Hb. rewrite Dd, Nx. apply in_app_or in Hb as [Hb|[<-|[<-|[]]]]; [destruct (U b Hb); split; [lia|assumption]|split; [lia|intros X; apply Sd in X; lia]|split; [lia|intros X; apply Sd in X; lia]].
      + rewrite Bx. assert (Hlt : forall b, In b (bufs (model ++ opt)) -> b < next m) by (intros b Hb; apply U; exact Hb).
        apply NoDup_rev in N. rewrite <- rev_involutive. apply NoDup_rev. rewrite rev_app_distr. cbn [rev app]. constructor; [|constructor; [|exact N]].
        * intros [X|X]; [lia|]. apply in_rev in X. apply Hlt in X. lia.
        * intros X. apply in_rev in X. apply Hlt in X. lia.
      + rewrite E2. cbn [bind]. destruct (IH mo op m2 S2 U2 N2 Fs) as (mo' & op' & m3 & E3 & K3 & K4 & S3 & U3 & N3 & L3 & P3 & D3). exists mo', op', m3. split; [exact E3|].
        split; [congruence|]. split; [congruence|]. split; [exact S3|]. split; [exact U3|]. split; [exact N3|]. split; [lia|]. split.
        * intros _ b Hb. destruct bs as [|r' bs'].
          { cbn [train] in E3. injection E3 as <- <- <-. apply P2 in Hb. destruct Hb. split; [lia|assumption]. }
          { destruct (P3 ltac:(discriminate) b Hb). split; [lia|assumption]. }
        * intros b Hb. rewrite (D3 b) by lia. rewrite D2, Dd, Bx, in_app_iff. split.
          -- intros [[H|[[H|[H|[H|[]]]] T]]|(_ & H & _)]; [left; exact H|right; split; [discriminate|split; assumption]|lia|lia|]. apply P2 in H. lia.
          -- intros [H|(_ & H & T)]; [left; left; exact H|left; right; split; [left; exact H|exact T]].
  Qed.
  Lemma train_bad : forall batches model opt m r, devices <> 0 -> In r batches -> ~ divides r -> exists e, train devices taken batches model opt m = Err e.
  Proof.
    induction batches as [|r' bs IH]; intros model opt m r Hd I B; [destruct I|]. cbn [train]. unfold shard_batch. destruct (Nat.eqb_spec (r' mod devices) 0) as [E|E]; [|exists ValueError; reflexivity].
    destruct I as [->|I]; [contradiction|]. cbn [alloc bind]. destruct (train_step taken model opt _ _) as [[[mo op] m']|e]; [|exists e; reflexivity]. cbn [bind]. eapply IH; eassumption.
  Qed.
End Params.

(** Training succeeds for any number of batches exactly if the number of devices divides the rows of each. It keeps what is not an array; the resulting
    arrays are on all devices, distinct and not deleted, whichever donated buffers were made use of. *)
Theorem C129_training : forall devices taken batches model opt m, devices <> 0 -> sound m -> usable m (model ++ opt) -> NoDup (bufs (model ++ opt)) ->
  (Forall (fun r => r mod devices = 0) batches <-> exists r, training devices taken batches model opt m = Ok r) /\
  (forall model' opt' m', training devices taken batches model opt m = Ok (model', opt', m') -> skeleton model' = skeleton model /\ skeleton opt' = skeleton opt /\
     sound m' /\ usable m' (model' ++ opt') /\ NoDup (bufs (model' ++ opt')) /\ (forall b, In b (bufs model') -> where_ m' b = Replicated) /\
     (batches <> [] -> forall b, In b (bufs opt') -> where_ m' b = Replicated)).
Proof.
  intros devices taken batches model opt m Hd Sd U N. unfold training.
  destruct (shard_ok Replicated model m) as (mo & m1 & E & K & D & L & W & P & R & ND); [intros b Hb; apply U; rewrite bufs_app; apply in_or_app; left; exact Hb|]. rewrite E. cbn [bind].
  rewrite bufs_app in N. assert (N1 : NoDup (bufs model)) by ((clear - N; induction (bufs model) as [|x l IH]; [constructor|]; inversion N as [|? ? A B]; subst; constructor; [intros X; apply A, in_or_app; left; exact X|apply IH; exact B])).
  assert (N2 : NoDup (bufs opt)) by (clear - N; induction (bufs model) as [|x l IH]; [exact N|]; inversion N; auto).
  assert (Dj : forall b, In b (bufs model) -> In b (bufs opt) -> False).
  { clear - N. induction (bufs model) as [|x l IH]; intros b A B; [destruct A|]. inversion N as [|? ? A' B']; subst. destruct A as [<-|A]; [apply A', in_or_app; right; exact B|exact (IH B' b A B)]. }
  assert (So : sound m1) by (intros b Hb; rewrite D in Hb; apply Sd in Hb; lia).
  assert (Uo : forall b, In b (bufs opt) -> b < next m /\ ~ In b (dead m)) by (intros b Hb; apply U; rewrite bufs_app; apply in_or_app; right; exact Hb).
  assert (Um : usable m1 (mo ++ opt)).
  { intros b Hb. rewrite bufs_app in Hb. rewrite D. apply in_app_or in Hb as [Hb|Hb].
    - destruct (R b Hb) as [[A _]|A]; [|split; [lia|intros X; apply Sd in X; lia]]. destruct (U b) as [A1 A2]; [rewrite bufs_app; apply in_or_app; left; exact A|]. split; [lia|exact A2].
    - destruct (Uo b Hb). split; [lia|assumption]. }
  assert (Nm : NoDup (bufs (mo ++ opt))).
  { rewrite bufs_app. specialize (ND N1). assert (X : forall l, NoDup l -> (forall b, In b l -> ~ In b (bufs opt)) -> NoDup (l ++ bufs opt)).
    { induction l as [|x l IH]; intros Nl Hl; [exact N2|]. inversion Nl; subst. cbn [app]. constructor; [|apply IH; [assumption|intros b Hb; apply Hl; right; exact Hb]]. intros X. apply in_app_or in X as [X|X]; [contradiction|]. exact (Hl x (or_introl eq_refl) X). }
    apply X; [exact ND|]. intros b A B. destruct (R b A) as [[A1 _]|A1]; [exact (Dj b A1 B)|]. destruct (Uo b B). lia. }
  split; [split|].
  - intros F. destruct (train_ok devices taken batches mo opt m1 So Um Nm F) as (mo' & op' & m' & E' & _). eauto.
  - intros [r Hr]. apply Forall_forall. intros x Hx. destruct (Nat.eq_dec (x mod devices) 0) as [|B]; [assumption|]. destruct (train_bad devices taken batches mo opt m1 x Hd Hx B) as [e He]. congruence.
  - intros mo' op' m' Hr. assert (F : Forall (fun r => r mod devices = 0) batches).
    { apply Forall_forall. intros x Hx. destruct (Nat.eq_dec (x mod devices) 0) as [|B]; [assumption|]. destruct (train_bad devices taken batches mo opt m1 x Hd Hx B) as [e He]. congruence. }
    destruct (train_ok devices taken batches mo opt m1 So Um Nm F) as (mo2 & op2 & m2 & E' & K1 & K2 & S2 & U2 & N3 & L2 & P2 & _). rewrite E' in Hr. injection Hr as <- <- <-.
    split; [congruence|]. split; [exact K2|]. split; [exact S2|]. split; [exact U2|]. split; [exact N3|]. split.
    + intros b Hb. destruct batches as [|r bs].
      * cbn [train] in E'. injection E' as <- <- <-. apply P. exact Hb.
      * apply (P2 ltac:(discriminate)). rewrite bufs_app. apply in_or_app. left. exact Hb.
    + intros Hn b Hb. apply (P2 Hn). rewrite bufs_app. apply in_or_app. right. exact Hb.
Qed.
Print Assumptions C129_training.

(** One step runs exactly if no array is deleted and no two leaves of model, optimiser state and batch are one array. *)
Theorem C129_step : forall taken model opt xy m, (exists r, train_step taken model opt xy m = Ok r) <->
  (forall b, In b (bufs (model ++ opt ++ xy)) -> ~ In b (dead m)) /\ NoDup (bufs (model ++ opt ++ xy)).
Proof.
  intros taken model opt xy m. pose proof (call_iff taken (model ++ opt ++ xy) [] m) as C. cbn [bufs flat_map] in C. rewrite app_nil_r in C. unfold train_step.
  destruct (call taken (model ++ opt ++ xy) [] m) as [m1|e] eqn:E; cbn [bind].
  - destruct (results Replicated model m1) as [mo m2]. destruct (results Replicated opt m2) as [op m3]. split; [|eauto]. intros _. destruct (proj1 C (ex_intro _ m1 eq_refl)) as (A & B & _). split; assumption.
  - split; [intros [r H]; discriminate|]. intros [A B]. destruct (proj2 C) as [m' H]; [|discriminate]. split; [exact A|]. split; [exact B|]. intros b _ [].
Qed.
Print Assumptions C129_step.
(** So a model with one array in two places (tied weights) that is already on all devices cannot be trained like this; ... *)
Theorem C129_tied_refuted : forall devices taken rows batches b opt m, where_ m b = Replicated -> exists e, training devices taken (rows :: batches) [Buf b; Buf b] opt m = Err e.
Proof.
  intros devices taken rows batches b opt m H. unfold training. cbn [shard]. destruct (is_dead m b) eqn:D; [eexists; reflexivity|]. rewrite H. cbn [place_eqb bind]. rewrite D, H. cbn [place_eqb bind]. cbn [train].
  destruct (shard_batch devices rows m) as [[xy m1]|e]; [|eexists; reflexivity]. cbn [bind]. destruct (train_step taken [Buf b; Buf b] opt xy m1) as [r|e] eqn:E; [|eexists; reflexivity].
  exfalso. destruct (proj1 (C129_step taken [Buf b; Buf b] opt xy m1) (ex_intro _ r E)) as [_ N]. cbn in N. inversion N as [|? ? X]. apply X. left. reflexivity.
Qed.
Print Assumptions C129_tied_refuted.
(** ... from the first device it is copied, once for each place. *)
Example C129_tied_copied : exists r, training 2 (fun _ => true) [4; 4] [Buf 0; Buf 0] [Buf 1] (mk_memory 2 [] (fun _ => Home)) = Ok r.
Proof. eexists. vm_compute. reflexivity. Qed.

(** The arrays of the model that was there before: deleted exactly if there was a step, they were on all devices, and their memory was made use of. *)
Theorem C129_original : forall devices taken batches model opt m model' opt' m', devices <> 0 -> sound m -> usable m (model ++ opt) -> NoDup (bufs (model ++ opt)) ->
  training devices taken batches model opt m = Ok (model', opt', m') ->
  forall b, In b (bufs model) -> (In b (dead m') <-> batches <> [] /\ where_ m b = Replicated /\ taken b = true).
Proof.
  intros devices taken batches model opt m model' opt' m' Hd Sd U N Hr. unfold training in Hr.
  destruct (shard_ok Replicated model m) as (mo & m1 & E & K & D & L & W & P & R & ND); [intros b Hb; apply U; rewrite bufs_app; apply in_or_app; left; exact Hb|]. rewrite E in Hr. cbn [bind] in Hr.
  assert (F : Forall (fun r => r mod devices = 0) batches).
  { apply Forall_forall. intros x Hx. destruct (Nat.eq_dec (x mod devices) 0) as [|B]; [assumption|]. destruct (train_bad devices taken batches mo opt m1 x Hd Hx B) as [e He]. congruence. }
  assert (Keep : forall b, In b (bufs model) -> (In b (bufs mo) <-> where_ m b = Replicated)).
  { clear - E U. revert m mo m1 E U. generalize Replicated as p. intros p. assert (G : forall m mo m1, usable m model -> shard p model m = Ok (mo, m1) -> forall b, In b (bufs model) -> (In b (bufs mo) <-> where_ m b = p)).
    { induction model as [|[x|s] t IH]; intros m mo m1 U E b Hb; [destruct Hb| |].
      - cbn [shard] in E. destruct (is_dead m x); [discriminate|]. assert (Ut : usable m t) by (intros y Hy; apply U; right; exact Hy). destruct (place_eqb (where_ m x) p) eqn:Pl.
        + destruct (shard p t m) as [[t' m']|] eqn:Et; [|discriminate]. injection E as <- <-. cbn [bufs flat_map app]. fold (bufs t'). apply place_eqb_iff in Pl.
          destruct (Nat.eq_dec x b) as [<-|Nx]; [split; [intros _; exact Pl|intros _; left; reflexivity]|]. destruct Hb as [Hb|Hb]; [contradiction|]. rewrite <- (IH m t' m' Ut Et b Hb). split; [intros [A|A]; [contradiction|exact A]|intros A; right; exact A].
        + cbn [alloc] in E. set (m2 := mk_memory _ _ _) in E. destruct (shard p t m2) as [[t' m']|] eqn:Et; [|discriminate]. injection E as <- <-. cbn [bufs flat_map app]. fold (bufs t').
          assert (U2 : usable m2 t) by (intros y Hy; destruct (Ut y Hy); cbn; split; [lia|assumption]). assert (Lb : b < next m) by (apply U; exact Hb).
          assert (W2 : where_ m2 b = where_ m b) by (cbn; destruct (Nat.eqb_spec b (next m)); [lia|reflexivity]).
          destruct (in_dec Nat.eq_dec b (bufs t)) as [It|It].
          * rewrite <- W2, <- (IH m2 t' m' U2 Et b It). split; [intros [A|A]; [lia|exact A]|intros A; right; exact A].
          * destruct Hb as [->|Hb]; [|contradiction]. split; [intros [A|A]; [lia|]|intros A; apply place_eqb_iff in A; congruence].
            destruct (shard_ok p t m2 U2) as (t2 & m3 & E2 & _ & _ & _ & _ & _ & R2 & _). rewrite Et in E2. injection E2 as <- <-. destruct (R2 b A) as [[X _]|X]; [contradiction|]. cbn in X. lia.
      - cbn [shard] in E. destruct (shard p t m) as [[t' m']|] eqn:Et; [|discriminate]. injection E as <- <-. exact (IH m t' m' U Et b Hb). }
    intros m mo m1 E U b Hb. apply (G m mo m1); [intros y Hy; apply U; rewrite bufs_app; apply in_or_app; left; exact Hy|exact E|exact Hb]. }
  rewrite bufs_app in N.
  assert (N1 : NoDup (bufs model)) by (clear - N; induction (bufs model) as [|x l IH]; [constructor|]; inversion N as [|? ? A B]; subst; constructor; [intros X; apply A, in_or_app; left; exact X|apply IH; exact B]).
  assert (N2 : NoDup (bufs opt)) by (clear - N; induction (bufs model) as [|x l IH]; [exact N|]; inversion N; auto).
  assert (Dj : forall b, In b (bufs model) -> In b (bufs opt) -> False).
  { clear - N. induction (bufs model) as [|x l IH]; intros b A B; [destruct A|]. inversion N as [|? ? A' B']; subst. destruct A as [<-|A]; [apply A', in_or_app; right; exact B|exact (IH B' b A B)]. }
  assert (Uo : forall b, In b (bufs opt) -> b < next m /\ ~ In b (dead m)) by (intros b Hb; apply U; rewrite bufs_app; apply in_or_app; right; exact Hb).
  destruct (train_ok devices taken batches mo opt m1) as (mo2 & op2 & m2 & E' & _ & _ & _ & _ & _ & _ & _ & D2); [| | |exact F|].
  - intros b Hb. rewrite D in Hb. apply Sd in Hb. lia.
  - intros b Hb. rewrite bufs_app in Hb. rewrite D. apply in_app_or in Hb as [Hb|Hb].
    + destruct (R b Hb) as [[A _]|A]; [|split; [lia|intros X; apply Sd in X; lia]]. destruct (U b) as [A1 A2]; [rewrite bufs_app; apply in_or_app; left; exact A|]. split; [lia|exact A2].
    + destruct (Uo b Hb). split; [lia|assumption].
  - rewrite bufs_app. specialize (ND N1). assert (X : forall l, NoDup l -> (forall b, In b l -> ~ In b (bufs opt)) -> NoDup (l ++ bufs opt)).
    { induction l as [|x l IH]; intros Nl Hl; [exact N2|]. inversion Nl; subst. cbn [app]. constructor; [|apply IH; [assumption|intros b Hb; apply Hl; right; exact Hb]]. intros X. apply in_app_or in X as [X|X]; [contradiction|]. exact (Hl x (or_introl eq_refl) X). }
    apply X; [exact ND|]. intros b A B. destruct (R b A) as [[A1 _]|A1]; [exact (Dj b A1 B)|]. destruct (Uo b B). lia.
  - rewrite E' in Hr. injection Hr as <- <- <-. intros b Hb. destruct (U b) as [Lb Db]; [rewrite bufs_app; apply in_or_app; left; exact Hb|]. rewrite (D2 b) by lia. rewrite D, bufs_app, in_app_iff, <- (Keep b Hb).
    split; [intros [H|(H1 & [H2|H2] & H3)]; [contradiction|auto|exfalso; exact (Dj b Hb H2)]|intros (H1 & H2 & H3); right; auto].
Qed.
Print Assumptions C129_original.

(** ** Evaluation *)
(** The model is kept: evaluation succeeds, for any number of batches, exactly if the devices divide them, and the model can be used on. *)
Theorem C129_evaluation : forall devices taken batches model m, devices <> 0 -> sound m -> usable m model ->
  (Forall (fun r => r mod devices = 0) batches <-> exists m', evaluation devices taken false batches model m = Ok m') /\
  (forall m', evaluation devices taken false batches model m = Ok m' -> sound m' /\ usable m' model /\ forall b, b < next m -> (In b (dead m') <-> In b (dead m)) /\ where_ m' b = where_ m b).
Proof.
  intros devices taken batches model. induction batches as [|r bs IH]; intros m Hd Sd U.
  - cbn [evaluation]. split; [split; [eauto|constructor]|]. intros m' E. injection E as <-. split; [exact Sd|]. split; [exact U|]. intros b _. split; reflexivity.
  - cbn [evaluation]. unfold shard_batch. destruct (Nat.eqb_spec (r mod devices) 0) as [Er|Er].
    2:{ cbn [bind]. split; [split; [intros F; apply Forall_cons_iff in F as [F _]; contradiction|intros [m' H]; discriminate]|discriminate]. }
    cbn [alloc bind next dead where_]. rewrite call_ok; cbn [bufs flat_map app next dead where_].
    + cbn [bind alloc next dead where_]. set (m1 := mk_memory _ _ _).
      assert (Dm : forall b, In b (dead m1) -> In b (dead m) \/ b = next m \/ b = S (next m)).
      { intros b Hb. cbn [m1 dead] in Hb. apply in_app_or in Hb as [Hb|Hb]; [|left; exact Hb]. apply filter_In in Hb as [[Hb|[Hb|[]]] _]; auto. }
      destruct (IH m1) as [I1 I2]; [exact Hd| | |].
      * intros b Hb. cbn [m1 next]. destruct (Dm b Hb) as [H|[-> | ->]]; [apply Sd in H|..]; lia.
      * intros b Hb. destruct (U b Hb) as [A B]. split; [cbn [m1 next]; lia|]. intros X. destruct (Dm b X) as [H|[-> | ->]]; [contradiction|lia|lia].
      * split; [rewrite Forall_cons_iff; rewrite I1; tauto|]. intros m' E. destruct (I2 m' E) as (J1 & J2 & J3). split; [exact J1|]. split; [exact J2|]. intros b Hb. destruct (J3 b) as [J4 J5]; [cbn [m1 next]; lia|].
        split; [rewrite J4; split; [intros X; destruct (Dm b X) as [H|[-> | ->]]; [exact H|lia|lia]|intros H; cbn [m1 dead]; apply in_or_app; right; exact H]|].
        rewrite J5. cbn [m1 where_]. repeat (match goal with |- context [Nat.eqb b ?k] => destruct (Nat.eqb_spec b k); [lia|] end). reflexivity.
    + fold (bufs model). intros b [<-|[<-|Hb]] X; [apply Sd in X; lia|apply Sd in X; lia|]. exact (proj2 (U b Hb) X).
    + constructor; [intros [X|[]]; lia|constructor; [intros []|constructor]].
    + fold (bufs model). intros b [<-|[<-|[]]] X; apply U in X; lia.
Qed.
Print Assumptions C129_evaluation.
(** Were the model donated as well, as in training, the second batch would fail. *)
Theorem C129_evaluation_all_refuted : forall devices taken r1 r2 batches model m b, In b (bufs model) -> taken b = true -> exists e, evaluation devices taken true (r1 :: r2 :: batches) model m = Err e.
Proof.
  intros devices taken r1 r2 batches model m b Hb T. cbn [evaluation]. unfold shard_batch. destruct (Nat.eqb (r1 mod devices) 0); [|eexists; reflexivity]. cbn [alloc bind].
  match goal with |- context [call taken ?d ?k ?m] => destruct (call taken d k m) as [m2|e] eqn:E end; [|eexists; reflexivity]. cbn [bind].
  destruct (Nat.eqb (r2 mod devices) 0); [|eexists; reflexivity]. cbn [bind].
  match goal with |- context [bind (call taken ?d ?k ?m) _] => destruct (call taken d k m) as [m4|e] eqn:E2 end; [|eexists; reflexivity].
  exfalso. apply (ex_intro (fun x => call taken _ _ _ = Ok x)) in E2. apply call_iff in E2 as (A & _). apply (A b); [apply in_or_app; left; rewrite bufs_app; apply in_or_app; left; exact Hb|].
  unfold call in E. destruct (existsb _ _) in E; [discriminate|]. destruct (_ || _) in E; [discriminate|]. injection E as <-. cbn [dead]. apply in_or_app. left. apply filter_In. split; [|exact T]. rewrite bufs_app. apply in_or_app. left. exact Hb.
Qed.
Print Assumptions C129_evaluation_all_refuted.
(** The batches of [eval_dataloader] (C122): the whole data set can be evaluated exactly if the devices divide its size, and the batch size if there is more than one batch. *)
Theorem C129_eval_batches : forall A (arrays : list (list A)) n b devices taken model m, arrays <> [] -> Forall (fun a => length a = n) arrays -> 0 < n -> 0 < b -> devices <> 0 -> sound m -> usable m model ->
  exists bts, (exists fuel, eval_items fuel arrays b = Some (Ok bts)) /\
    ((exists m', evaluation devices taken false (map (fun bt => length (hd [] bt)) bts) model m = Ok m') <-> n mod devices = 0 /\ (b < n -> b mod devices = 0)).
Proof.
  intros A arrays n b devices taken model m Ha HS Hn Hb Hd So U. destruct (C122_eval A arrays n b) as (bts & E & L & Z & _); [split; assumption|exact Hb|]. exists bts. split; [exists (batches_of n b); apply E; lia|].
  rewrite <- (proj1 (C129_evaluation devices taken _ model m Hd So U)).
  assert (HB : forall i, i < length bts -> exists bt, nth_error bts i = Some bt /\ length (hd [] bt) = Nat.min b (n - i * b)).
  { intros i Hi. destruct (nth_error bts i) as [bt|] eqn:Ei; [|apply nth_error_None in Ei; lia]. exists bt. split; [reflexivity|]. destruct (Z i bt Ei) as [Z1 Z2]. destruct bt as [|r bt]; [destruct arrays; [congruence|discriminate]|]. cbn [hd]. apply Forall_cons_iff in Z2 as [Z2 _]. exact Z2. }
  destruct (batches_of_ok n b Hb) as [B1 B2]. rewrite <- L in B1, B2. assert (Lpos : 0 < length bts) by (destruct (length bts); [cbn [Nat.mul] in B1; clear - B1 Hn; lia|clear; lia]).
  set (q := length bts - 1). assert (Hq : length bts = S q) by (unfold q; lia).
  assert (Q1 : q * b < n <= q * b + b).
  { rewrite Hq in B1, B2. destruct B2 as [B2|B2]; [discriminate|]. replace (S q - 1) with q in B2 by lia. cbn [Nat.mul] in B1. clear - B1 B2. lia. }
  rewrite Forall_forall. split.
  - intros F. assert (G : forall i, i < length bts -> Nat.min b (n - i * b) mod devices = 0).
    { intros i Hi. destruct (HB i Hi) as (bt & E1 & E2). rewrite <- E2. apply F. apply in_map_iff. exists bt. split; [reflexivity|]. eapply nth_error_In. exact E1. }
    assert (Gb : b < n -> b mod devices = 0) by (intros Hlt; specialize (G 0 Lpos); cbn [Nat.mul] in G; rewrite Nat.sub_0_r, Nat.min_l in G by lia; exact G).
    split; [|exact Gb]. specialize (G q ltac:(lia)). rewrite Nat.min_r in G by lia. destruct (Nat.eq_dec q 0) as [->|Nq]; [cbn [Nat.mul] in G; rewrite Nat.sub_0_r in G; exact G|].
    assert (Hlt : b < n) by (destruct q as [|q']; [congruence|]; cbn [Nat.mul] in Q1; clear - Q1; lia). specialize (Gb Hlt).
    replace n with (n - q * b + q * b) by lia. apply Nat.mod_divide in G; [|exact Hd]. apply Nat.mod_divide in Gb; [|exact Hd]. apply Nat.mod_divide; [exact Hd|]. apply Nat.divide_add_r; [exact G|apply Nat.divide_mul_r; exact Gb].
  - intros [Gn Gb] r Hr. apply in_map_iff in Hr as (bt & <- & I). apply In_nth_error in I as [i Ei]. assert (Hi : i < length bts) by (apply nth_error_Some; congruence). destruct (HB i Hi) as (bt2 & E1 & E2). rewrite Ei in E1. injection E1 as <-. rewrite E2.
    destruct (Nat.eq_dec i q) as [->|Ni].
    + rewrite Nat.min_r by lia. destruct (Nat.eq_dec q 0) as [->|Nq]; [cbn [Nat.mul]; rewrite Nat.sub_0_r; exact Gn|].
      assert (Hlt : b < n) by (destruct q as [|q']; [congruence|]; cbn [Nat.mul] in Q1; clear - Q1; lia). specialize (Gb Hlt). apply Nat.mod_divide in Gn; [|exact Hd]. apply Nat.mod_divide in Gb; [|exact Hd]. apply Nat.mod_divide; [exact Hd|]. apply Nat.divide_sub_r; [exact Gn|apply Nat.divide_mul_r; exact Gb].
    + assert (Lq : i < q) by lia. assert (i * b + b <= q * b) by (assert (X : S i * b <= q * b) by (apply Nat.mul_le_mono_r; lia); cbn [Nat.mul] in X; clear - X; lia). rewrite Nat.min_l by lia. apply Gb. lia.
Qed.
Print Assumptions C129_eval_batches.

(** ** Examples *)
Definition m0 : memory := mk_memory 3 [] (fun _ => Home).
Example C129_ex : exists model opt m, training 8 (fun _ => true) [16; 16; 16] [Buf 0; Static 7; Buf 1] [Buf 2] m0 = Ok (model, opt, m) /\ model = [Buf 17; Static 7; Buf 18] /\ ~ In 0 (dead m) /\ In 2 (dead m) /\
  (exists m', evaluation 8 (fun _ => true) false [16; 16] model m = Ok m') /\ evaluation 8 (fun _ => true) true [16; 16] model m = Err RuntimeError /\ training 8 (fun _ => true) [16; 12] [Buf 0] [Buf 2] m0 = Err ValueError.
Proof. do 3 eexists. split; [vm_compute; reflexivity|]. split; [reflexivity|]. split; [cbn; intuition lia|]. split; [cbn; tauto|]. split; [eexists; vm_compute; reflexivity|]. split; vm_compute; reflexivity. Qed.
