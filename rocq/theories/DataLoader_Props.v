(** C122: the data loaders of the examples. *)
From Coq Require Import Lia PeanoNat Permutation.
From Verif Require Import DataLoader_Model.
Local Open Scope nat_scope.
Local Open Scope list_scope.

Section Loader.
  Variable A : Type.
  Local Notation batch := (list (list A)).
  (** The rows of [a] at positions [idx]. *)
  Definition rows_at (a : list A) (idx : list nat) (r : list A) : Prop := Forall2 (fun i x => nth_error a i = Some x) idx r.
  Definition sized (n : nat) (arrays : list (list A)) : Prop := arrays <> [] /\ Forall (fun a => length a = n) arrays.
  (** An epoch goes through all examples in some order. *)
  Definition shuffles (perm : nat -> list nat) (n : nat) : Prop := forall e, Permutation (perm e) (seq 0 n).

  Lemma size_ok n arrays : sized n arrays -> dataset_size arrays = Ok n.
  Proof.
    intros [H0 H]. destruct arrays as [|a l]; [contradiction|]. cbn [dataset_size]. rewrite Forall_forall in H.
    pose proof (H a (or_introl eq_refl)) as Ha. rewrite Ha.
    replace (forallb _ _) with true; [reflexivity|]. symmetry. apply forallb_forall. intros b Hb. apply Nat.eqb_eq. apply H. exact Hb.
  Qed.
  Lemma gather_ok a idx : (forall i, In i idx -> i < length a) -> exists r, gather a idx = Ok r /\ rows_at a idx r.
  Proof.
    unfold gather, rows_at. induction idx as [|i idx IH]; intros H; [exists []; split; [reflexivity|constructor]|].
    destruct IH as (r & E & F); [intros; apply H; right; assumption|]. destruct (nth_error a i) as [x|] eqn:Ex.
    - exists (x :: r). cbn [mapM]. rewrite Ex. cbn [bind]. rewrite E. split; [reflexivity|]. constructor; assumption.
    - apply nth_error_None in Ex. specialize (H i (or_introl eq_refl)). lia.
  Qed.
  Lemma gathers_ok arrays idx : (forall a i, In a arrays -> In i idx -> i < length a) -> exists bt, mapM (fun a => gather a idx) arrays = Ok bt /\ Forall2 (fun a r => rows_at a idx r) arrays bt.
  Proof.
    induction arrays as [|a l IH]; intros H; [exists []; split; [reflexivity|constructor]|].
    destruct IH as (bt & E & F); [intros; eapply H; [right|]; eassumption|]. destruct (gather_ok a idx) as (r & E1 & F1); [intros; eapply H; [left; reflexivity|assumption]|].
    exists (r :: bt). cbn [mapM]. rewrite E1. cbn [bind]. rewrite E. split; [reflexivity|]. constructor; assumption.
  Qed.
  Lemma slice_in {X} (l : list X) s e x : In x (slice l s e) -> In x l.
  Proof. unfold slice. intros H. rewrite <- (firstn_skipn s l). apply in_or_app. right. rewrite <- (firstn_skipn (e - s) (skipn s l)). apply in_or_app. left. exact H. Qed.

  Variable perm : nat -> list nat.
  Lemma resume_fuel : forall fuel (arrays : list (list A)) n b k e start r, resume perm fuel arrays n b k e start = Some r -> resume perm (S fuel) arrays n b k e start = Some r.
  Proof.
    induction fuel as [|fuel IH]; intros arrays n b k e start r H; [destruct k; [exact H|discriminate]|].
    destruct k as [|k]; [exact H|]. cbn [resume] in H |- *. destruct (Nat.leb (start + b) n) eqn:E.
    - destruct (mapM _ arrays); [|exact H]. destruct (resume perm fuel arrays n b k e (start + b)) as [y|] eqn:Ey; [|discriminate]. apply IH in Ey. cbn [resume] in Ey. rewrite Ey. exact H.
    - apply IH in H. exact H.
  Qed.
  Lemma resume_more m : forall fuel (arrays : list (list A)) n b k e start r, resume perm fuel arrays n b k e start = Some r -> resume perm (m + fuel) arrays n b k e start = Some r.
  Proof. induction m as [|m IH]; intros; [assumption|]. cbn [Nat.add]. apply resume_fuel. apply IH. assumption. Qed.

  Lemma resume_ok arrays n b : (forall a e i, In a arrays -> In i (perm e) -> i < length a) -> 0 < b <= n ->
    forall k e j, j <= n / b -> exists bts, resume perm (2 * k) arrays n b k e (j * b) = Some (Ok bts) /\ length bts = k /\
      forall i bt, nth_error bts i = Some bt ->
        let e' := e + (j + i) / (n / b) in let s := (j + i) mod (n / b) * b in Forall2 (fun a r => rows_at a (slice (perm e') s (s + b)) r) arrays bt.
  Proof.
    intros HP Hb.
    assert (Q : 0 < n / b) by (apply Nat.div_str_pos; lia).
    assert (QB : n / b * b <= n) by (rewrite Nat.mul_comm; apply Nat.mul_div_le; lia).
    assert (QS : n < S (n / b) * b) by (rewrite Nat.mul_comm; apply Nat.mul_succ_div_gt; lia).
    remember (n / b) as q eqn:Eq. clear Eq.
    induction k as [|k IH]; intros e j Hj; [exists []; split; [reflexivity|]; split; [reflexivity|]; intros [|i] bt H; discriminate|].
    replace (2 * S k) with (S (S (2 * k))) by lia.
    assert (G : forall e j, j < q -> exists bts, resume perm (S (2 * k)) arrays n b (S k) e (j * b) = Some (Ok bts) /\ length bts = S k /\
      forall i bt, nth_error bts i = Some bt ->
        let e' := e + (j + i) / q in let s := (j + i) mod q * b in Forall2 (fun a r => rows_at a (slice (perm e') s (s + b)) r) arrays bt).
    { clear e j Hj. intros e j Hj. destruct (IH e (S j) ltac:(lia)) as (bts & E & L & F).
      destruct (gathers_ok arrays (slice (perm e) (j * b) (j * b + b))) as (bt & Eb & Fb); [intros a i Ha Hi; apply (HP a e i Ha); eapply slice_in; exact Hi|].
      exists (bt :: bts). cbn [resume]. destruct (Nat.leb_spec (j * b + b) n); [|assert (S j * b <= q * b) by (apply Nat.mul_le_mono_r; lia); cbn in *; lia].
      rewrite Eb. replace (j * b + b) with (S j * b) by (cbn; lia). rewrite E. split; [reflexivity|]. split; [cbn; lia|]. intros [|i] bt' Hi; cbn zeta.
      - injection Hi as <-. rewrite Nat.add_0_r, Nat.div_small, Nat.mod_small, Nat.add_0_r by exact Hj. exact Fb.
      - specialize (F i bt' Hi). cbn zeta in F. rewrite Nat.add_succ_r. exact F. }
    destruct (Nat.eq_dec j q) as [->|Hne].
    - destruct (G (S e) 0 Q) as (bts & E & L & F). exists bts. split.
      + remember (S (2 * k)) as fl. cbn [resume]. destruct (Nat.leb_spec (q * b + b) n); [cbn in QS; lia|]. exact E.
      + split; [exact L|]. intros i bt Hi. specialize (F i bt Hi). cbn zeta in F |- *. cbn [Nat.add] in F.
        replace (q + i) with (i + 1 * q) by lia. rewrite Nat.div_add, Nat.mod_add by lia. replace (e + (i / q + 1)) with (S (e + i / q)) by lia. exact F.
    - destruct (G e j ltac:(lia)) as (bts & E & L & F). exists bts. split; [apply resume_fuel; exact E|]. split; [exact L|exact F].
  Qed.
End Loader.

(** C122. For a batch size from one to the size of the dataset, the training loader never stops; batch number [i] holds, of every array, the rows at
    the same [b] positions: those of the shuffle of epoch [i / (n / b)] from [i mod (n / b) * b] on. *)
Theorem C122_batches : forall A (perm : nat -> list nat) arrays n b, sized A n arrays -> shuffles perm n -> 0 < b <= n ->
  forall k, exists bts, (forall fuel, 2 * k <= fuel -> train_items perm fuel arrays b k = Some (Ok bts)) /\ length bts = k /\
    forall i bt, nth_error bts i = Some bt ->
      let e := i / (n / b) in let s := i mod (n / b) * b in Forall2 (fun a r => rows_at A a (slice (perm e) s (s + b)) r) arrays bt.
Proof.
  intros A perm arrays n b HS HP Hb k.
  destruct (resume_ok A perm arrays n b) with (k := k) (e := 0) (j := 0) as (bts & E & L & F); [|exact Hb|lia|].
  { intros a e i Ha Hi. apply (Permutation_in _ (HP e)) in Hi. apply in_seq in Hi. destruct HS as [_ HS]. rewrite Forall_forall in HS. rewrite (HS a Ha). lia. }
  exists bts. split; [|split; [exact L|exact F]]. intros fuel Hf. unfold train_items. rewrite (size_ok A n arrays HS).
  replace fuel with ((fuel - 2 * k) + 2 * k) by lia. apply resume_more. exact E.
Qed.
Print Assumptions C122_batches.

Lemma slices_concat {X} (l : list X) b q : concat (map (fun j => slice l (j * b) (j * b + b)) (seq 0 q)) = firstn (q * b) l.
Proof.
  induction q as [|q IH]; [reflexivity|]. rewrite seq_S, map_app, concat_app, IH. cbn [map concat Nat.add]. rewrite app_nil_r. unfold slice.
  replace (q * b + b - q * b) with b by lia. replace (S q * b) with (q * b + b) by (cbn; lia).
  generalize (q * b). intros m. clear. revert m. induction l as [|x l IH]; intros [|m]; cbn; rewrite ?firstn_nil; try reflexivity. rewrite IH. reflexivity.
Qed.
Lemma nodup_app {X} (l m : list X) : NoDup (l ++ m) -> NoDup l.
Proof.
  induction l as [|x l IH]; intros H; [constructor|]. cbn in H. inversion H; subst. constructor; [|apply IH; assumption].
  intros Hx. match goal with K : ~ In x _ |- _ => apply K end. apply in_or_app. left. exact Hx.
Qed.
(** C122. In an epoch no example is used twice; all are used if the batch size divides the size of the dataset, and otherwise all but the remainder. *)
Theorem C122_epoch : forall perm n b, shuffles perm n -> 0 < b -> forall e,
  let used := concat (map (fun j => slice (perm e) (j * b) (j * b + b)) (seq 0 (n / b))) in
  NoDup used /\ length used = n - n mod b /\ (forall i, In i used -> i < n) /\ (n mod b = 0 -> Permutation used (seq 0 n)).
Proof.
  intros perm n b HP Hb e. cbn zeta. rewrite slices_concat.
  assert (L : length (perm e) = n) by (rewrite (Permutation_length (HP e)); apply seq_length).
  assert (D : n / b * b = n - n mod b) by (pose proof (Nat.div_mod n b ltac:(lia)) as D; rewrite (Nat.mul_comm (n / b) b); clear - D; generalize dependent (n mod b); generalize (b * (n / b)); intros; lia).
  assert (N : NoDup (perm e)) by (apply (Permutation_NoDup (Permutation_sym (HP e))); apply seq_NoDup).
  rewrite <- (firstn_skipn (n / b * b) (perm e)) in N. split; [exact (nodup_app _ _ N)|]. split; [|split].
  - rewrite firstn_length, L, D. apply Nat.min_l. apply Nat.le_sub_l.
  - intros i Hi. assert (H : In i (perm e)) by (rewrite <- (firstn_skipn (n / b * b) (perm e)); apply in_or_app; left; exact Hi).
    apply (Permutation_in _ (HP e)) in H. apply in_seq in H. lia.
  - intros H0. rewrite H0, Nat.sub_0_r in D. rewrite D, firstn_all2 by lia. apply HP.
Qed.
Print Assumptions C122_epoch.

(** ** The loader of the diffusion example *)
Lemma strict_resume A perm data n b : forall fuel k e start,
  resume_strict (A := A) perm fuel data (S n) b k e start = option_map (rmap (map (fun bt => nth 0 bt []))) (resume perm fuel [data] n b k e start).
Proof.
  induction fuel as [|fuel IH]; intros [|k] e start; try reflexivity. cbn [resume resume_strict]. change (Nat.ltb (start + b) (S n)) with (Nat.leb (start + b) n).
  destruct (Nat.leb (start + b) n); [|apply IH]. cbn [mapM]. destruct (gather data _) as [r|x]; cbn [bind]; [|reflexivity]. rewrite IH.
  destruct (resume perm fuel [data] n b k e (start + b)) as [[bts|x]|]; reflexivity.
Qed.
(** C122. For batch sizes below the size of the dataset, an epoch of the diffusion example has [(n - 1) / b] batches: if [b] divides [n], the last full batch is
    left out. *)
Theorem C122_diffusion : forall A (perm : nat -> list nat) (data : list A) n b, length data = n -> shuffles perm n -> 0 < b < n ->
  forall k, exists bts, (forall fuel, 2 * k <= fuel -> diffusion_items perm fuel data b k = Some (Ok bts)) /\ length bts = k /\
    forall i r, nth_error bts i = Some r ->
      let q := (n - 1) / b in let s := i mod q * b in rows_at A data (slice (perm (i / q)) s (s + b)) r.
Proof.
  intros A perm data n b HL HP Hb k. destruct n as [|n]; [lia|]. replace (S n - 1) with n by lia.
  destruct (resume_ok A perm [data] n b) with (k := k) (e := 0) (j := 0) as (bts & E & L & F); [|lia|lia|].
  { intros a e i [<-|[]] Hi. apply (Permutation_in _ (HP e)) in Hi. apply in_seq in Hi. lia. }
  exists (map (fun bt => nth 0 bt []) bts). split; [|split; [rewrite map_length; exact L|]].
  - intros fuel Hf. unfold diffusion_items. rewrite HL, strict_resume.
    replace fuel with ((fuel - 2 * k) + 2 * k) by lia. pose proof (resume_more A perm (fuel - 2 * k) _ _ _ _ _ _ _ _ E) as X. change (0 * b) with 0 in X. rewrite X. reflexivity.
  - intros i r Hi. rewrite nth_error_map in Hi. destruct (nth_error bts i) as [bt|] eqn:Ei; [|discriminate]. injection Hi as <-.
    specialize (F i bt Ei). cbn zeta in F |- *. inversion F as [|? ? ? ? R _]; subst. exact R.
Qed.
Print Assumptions C122_diffusion.
(** C122. So the examples an epoch uses are not all, even if the batch size divides the size of the dataset; and that one batch be the dataset makes the loader loop
    forever. *)
Theorem C122_diffusion_epoch_refuted : forall perm n b, shuffles perm n -> 0 < b < n -> n mod b = 0 -> forall e,
  exists missed, length missed = b /\ Permutation (concat (map (fun j => slice (perm e) (j * b) (j * b + b)) (seq 0 ((n - 1) / b))) ++ missed) (seq 0 n).
Proof.
  intros perm n b HP Hb H0 e. rewrite slices_concat. exists (skipn ((n - 1) / b * b) (perm e)). rewrite firstn_skipn. split; [|apply HP].
  assert (L : length (perm e) = n) by (rewrite (Permutation_length (HP e)); apply seq_length). rewrite skipn_length, L.
  apply Nat.mod_divides in H0 as [c ->]; [|lia]. destruct c as [|c]; [lia|].
  replace (b * S c - 1) with (b - 1 + c * b) by lia. rewrite Nat.div_add, Nat.div_small by lia. lia.
Qed.
Print Assumptions C122_diffusion_epoch_refuted.
Theorem C122_diffusion_hangs_refuted : forall A (perm : nat -> list nat) (data : list A) b, length data <= b ->
  forall fuel k, diffusion_items perm fuel data b (S k) = None.
Proof.
  intros A perm data b Hb fuel k. unfold diffusion_items. generalize 0 at 1 as e. induction fuel as [|fuel IH]; intros e; [reflexivity|].
  cbn [resume_strict]. destruct (Nat.ltb_spec (0 + b) (length data)); [lia|]. apply IH.
Qed.
Print Assumptions C122_diffusion_hangs_refuted.

Lemma mapM_err {X Y} (f : X -> res Y) l e : mapM f l = Err e -> exists x, In x l /\ f x = Err e.
Proof.
  induction l as [|x l IH]; cbn [mapM]; intros H; [discriminate|]. destruct (f x) as [y|e'] eqn:E; cbn [bind] in H.
  - destruct (mapM f l) eqn:E'; cbn [bind] in H; [discriminate|]. destruct (IH H) as (z & Hz & Ez). exists z. split; [right; exact Hz|exact Ez].
  - injection H as ->. exists x. split; [left; reflexivity|exact E].
Qed.
Lemma forall2_impl {X Y} (P Q : X -> Y -> Prop) l m : (forall x y, P x y -> Q x y) -> Forall2 P l m -> Forall2 Q l m.
Proof. intros H. induction 1; constructor; auto. Qed.
(** C122. Rows stay together: the rows at one position of a batch come from one position of the arrays. *)
Theorem C122_paired : forall A (perm : nat -> list nat) arrays n b, sized A n arrays -> shuffles perm n -> 0 < b <= n ->
  forall k fuel bts, 2 * k <= fuel -> train_items perm fuel arrays b k = Some (Ok bts) ->
  forall bt j, In bt bts -> j < b -> exists i, i < n /\ Forall2 (fun a r => nth_error a i = nth_error r j /\ nth_error r j <> None) arrays bt.
Proof.
  intros A perm arrays n b HS HP Hb k fuel bts Hf E bt j Hbt Hj.
  destruct (C122_batches A perm arrays n b HS HP Hb k) as (bts' & E' & L & F). rewrite (E' fuel Hf) in E. injection E as ->.
  apply In_nth_error in Hbt as [i Hi]. specialize (F i bt Hi). cbn zeta in F.
  set (e := i / (n / b)) in *. set (s := i mod (n / b) * b) in *.
  assert (Q : 0 < n / b) by (apply Nat.div_str_pos; lia).
  assert (Hs : s + b <= n).
  { unfold s. pose proof (Nat.mod_upper_bound i (n / b) ltac:(lia)). pose proof (Nat.mul_div_le n b ltac:(lia)).
    assert (S (i mod (n / b)) * b <= n / b * b) by (apply Nat.mul_le_mono_r; lia). cbn in *. lia. }
  assert (Lp : length (perm e) = n) by (rewrite (Permutation_length (HP e)); apply seq_length).
  assert (Lsl : length (slice (perm e) s (s + b)) = b) by (unfold slice; rewrite firstn_length, skipn_length, Lp; lia).
  destruct (nth_error (slice (perm e) s (s + b)) j) as [p|] eqn:Ep; [|apply nth_error_None in Ep; lia].
  exists p. split.
  - apply nth_error_In, slice_in in Ep. apply (Permutation_in _ (HP e)) in Ep. apply in_seq in Ep. lia.
  - eapply forall2_impl; [|exact F]. intros a r Hr. unfold rows_at in Hr. clear - Hr Ep. revert j Ep. induction Hr as [|i0 x l r Hx _ IH]; intros [|j] Ep; try discriminate.
    + cbn in Ep. injection Ep as ->. cbn. rewrite Hx. split; [reflexivity|discriminate].
    + cbn in Ep |- *. apply IH. exact Ep.
Qed.
Print Assumptions C122_paired.

(** C122. Arrays of different sizes are refused. *)
Theorem C122_refused : forall A (perm : nat -> list nat) fuel (arrays : list (list A)) b k,
  train_items perm fuel arrays b k = Some (Err AssertionError) <->
  exists a l, arrays = a :: l /\ exists c, In c l /\ length c <> length a.
Proof.
  intros A perm fuel arrays b k. unfold train_items. destruct arrays as [|a l].
  - cbn. split; [discriminate|]. intros (a & l & E & _). discriminate.
  - cbn [dataset_size forallb]. rewrite Nat.eqb_refl. cbn [andb]. destruct (forallb (fun c : list A => length c =? length a) l) eqn:E.
    + split.
      * intros H. exfalso. revert H. generalize 0 at 1 as e. generalize 0 as s. intros s e. revert k e s.
        induction fuel as [|fuel IH]; intros [|k] e s H; try discriminate. cbn [resume] in H. destruct (Nat.leb (s + b) (length a)); [|eapply IH; exact H].
        destruct (mapM (fun a0 => gather a0 (slice (perm e) s (s + b))) (a :: l)) as [bt|x] eqn:Em.
        -- destruct (resume perm fuel (a :: l) (length a) b k e (s + b)) as [[y|y]|] eqn:Ey; try discriminate. cbn in H. injection H as ->. eapply IH; exact Ey.
        -- injection H as ->. clear - Em. apply mapM_err in Em as (c & _ & Hc). unfold gather in Hc. apply mapM_err in Hc as (i & _ & Hi). destruct (nth_error c i); discriminate.
      * intros (a' & l' & Ea & c & Hc & Hn). injection Ea as <- <-. rewrite forallb_forall in E. apply E in Hc. apply Nat.eqb_eq in Hc. contradiction.
    + split; [|reflexivity]. intros _. exists a, l. split; [reflexivity|]. apply Bool.not_true_iff_false in E. rewrite forallb_forall in E.
      clear - E. induction l as [|c l IH]; [exfalso; apply E; intros ? []|]. destruct (Nat.eq_dec (length c) (length a)) as [Hc|Hc]; [|exists c; split; [left; reflexivity|exact Hc]].
      destruct IH as (d & Hd & Hn); [|exists d; split; [right; exact Hd|exact Hn]]. intros H. apply E. intros d [<-|Hd]; [apply Nat.eqb_eq; exact Hc|apply H; exact Hd].
Qed.
Print Assumptions C122_refused.

(** A batch size above the size of the dataset: the loader shuffles forever and yields nothing. *)
Theorem C122_hangs_refuted : forall A (perm : nat -> list nat) arrays n b, sized A n arrays -> n < b ->
  forall fuel k, train_items perm fuel arrays b (S k) = None.
Proof.
  intros A perm arrays n b HS Hb fuel k. unfold train_items. rewrite (size_ok A n arrays HS). generalize 0 at 1 as e. induction fuel as [|fuel IH]; intros e; [reflexivity|].
  cbn [resume]. destruct (Nat.leb_spec (0 + b) n); [lia|]. apply IH.
Qed.
Print Assumptions C122_hangs_refuted.

(** ** Evaluation *)
Section Eval.
  Variable A : Type.
  Lemma eval_from_ok arrays n b : 0 < b -> forall m start fuel, n - start <= m * b -> m <= fuel -> (m = 0 \/ (m - 1) * b < n - start) ->
    eval_from fuel arrays n b start = Some (map (fun j => map (fun a : list A => slice a (start + j * b) (start + j * b + b)) arrays) (seq 0 m)).
  Proof.
    intros Hb. induction m as [|m IH]; intros start fuel Hn Hf Hm.
    - destruct fuel; cbn [eval_from]; destruct (Nat.ltb_spec start n); try reflexivity; cbn in Hn; lia.
    - destruct fuel as [|fuel]; [lia|]. cbn [eval_from]. destruct (Nat.ltb_spec start n) as [Hlt|Hge].
      2: { exfalso. destruct Hm as [Hm|Hm]; [lia|]. cbn in Hm. lia. }
      rewrite IH.
      + cbn [option_map seq map]. f_equal. f_equal; [cbn [Nat.mul]; rewrite Nat.add_0_r; reflexivity|]. rewrite <- seq_shift, map_map. apply map_ext. intros j.
        apply map_ext. intros a. f_equal; cbn [Nat.mul]; lia.
      + cbn in Hn. lia.
      + lia.
      + destruct m as [|m]; [left; reflexivity|right]. destruct Hm as [Hm|Hm]; [lia|]. cbn in Hm |- *. rewrite ?Nat.sub_0_r in *. lia.
  Qed.
End Eval.
(** The number of batches: [n / b] rounded up. *)
Definition batches_of (n b : nat) : nat := (n + b - 1) / b.
Lemma batches_of_ok n b : 0 < b -> n <= batches_of n b * b /\ (batches_of n b = 0 \/ (batches_of n b - 1) * b < n).
Proof.
  intros Hb. unfold batches_of. pose proof (Nat.div_mod (n + b - 1) b ltac:(lia)) as D. pose proof (Nat.mod_upper_bound (n + b - 1) b ltac:(lia)) as U.
  set (q := (n + b - 1) / b) in *. clearbody q. rewrite Nat.mul_comm in D. split; [lia|]. destruct q as [|q]; [left; reflexivity|right]. cbn [Nat.sub]. rewrite Nat.sub_0_r. cbn in D. lia.
Qed.
(** C122. The evaluation loader ends, and its batches put together are the arrays; all have the batch size but the last. *)
Theorem C122_eval : forall A (arrays : list (list A)) n b, sized A n arrays -> 0 < b -> exists bts,
  (forall fuel, batches_of n b <= fuel -> eval_items fuel arrays b = Some (Ok bts)) /\
  length bts = batches_of n b /\
  (forall i bt, nth_error bts i = Some bt -> length bt = length arrays /\ Forall (fun r => length r = Nat.min b (n - i * b)) bt) /\
  (forall j a, nth_error arrays j = Some a -> concat (map (fun bt => nth j bt []) bts) = a).
Proof.
  intros A arrays n b HS Hb. destruct (batches_of_ok n b Hb) as [B1 B2]. set (m := batches_of n b) in *. clearbody m.
  exists (map (fun j => map (fun a : list A => slice a (j * b) (j * b + b)) arrays) (seq 0 m)). split; [|split; [|split]].
  - intros fuel Hf. unfold eval_items. rewrite (size_ok A n arrays HS). rewrite (eval_from_ok A arrays n b Hb m 0 fuel); [reflexivity|lia|exact Hf|]. rewrite Nat.sub_0_r. exact B2.
  - rewrite map_length, seq_length. reflexivity.
  - intros i bt Hi. rewrite nth_error_map in Hi. destruct (nth_error (seq 0 m) i) as [i'|] eqn:Es; [|discriminate]. injection Hi as <-.
    assert (Hi' : i < m) by (rewrite <- (seq_length m 0); apply nth_error_Some; congruence).
    apply nth_error_nth with (d := 0) in Es. rewrite seq_nth in Es by exact Hi'. cbn in Es. subst i'.
    split; [apply map_length|]. apply Forall_map. destruct HS as [_ HS]. eapply Forall_impl; [|exact HS]. intros a Ha. unfold slice. rewrite firstn_length, skipn_length, Ha. f_equal. lia.
  - intros j a Hj. rewrite map_map.
    rewrite (map_ext _ (fun i => slice a (i * b) (i * b + b))).
    + rewrite slices_concat. apply firstn_all2. destruct HS as [_ HS]. rewrite Forall_forall in HS. rewrite (HS a (nth_error_In _ _ Hj)). exact B1.
    + intros i. apply nth_error_nth. rewrite nth_error_map, Hj. reflexivity.
Qed.
Print Assumptions C122_eval.
Theorem C122_eval_hangs_refuted : forall A (arrays : list (list A)) n, sized A n arrays -> 0 < n -> forall fuel, eval_items fuel arrays 0 = None.
Proof.
  intros A arrays n HS Hn fuel. unfold eval_items. rewrite (size_ok A n arrays HS). replace (eval_from fuel arrays n 0 0) with (@None (list (list (list A)))); [reflexivity|].
  induction fuel as [|fuel IH]; cbn [eval_from]; destruct (Nat.ltb_spec 0 n); try lia; [reflexivity|]. rewrite Nat.add_0_r, <- IH. reflexivity.
Qed.
Print Assumptions C122_eval_hangs_refuted.

(** ** The loss that is printed *)
From Coq Require Import ZArith QArith Qcanon.
Local Open Scope Qc_scope.
Definition total (l : list Qc) : Qc := fold_right Qcplus 0 l.
Definition of_nat (n : nat) : Qc := Q2Qc (inject_Z (Z.of_nat n)).
(** [jnp.mean] of the losses of the examples of a batch, here of one array. *)
Definition mean_loss {A} (f : A -> Qc) (bt : list (list A)) : Qc := let xs := nth 0 bt [] in total (map f xs) / of_nat (length xs).
Lemma total_app l m : total (l ++ m) = total l + total m.
Proof. unfold total. induction l as [|x l IH]; cbn; [ring|]. rewrite IH. ring. Qed.
Lemma of_nat_mul a b : of_nat (a * b) = of_nat a * of_nat b.
Proof. unfold of_nat, Qcmult. apply Q2Qc_eq_iff. cbn [this Q2Qc]. rewrite !Qred_correct, Nat2Z.inj_mul, inject_Z_mult. reflexivity. Qed.
Lemma of_nat_pos n : (0 < n)%nat -> of_nat n <> 0.
Proof. intros H E. unfold of_nat in E. apply Q2Qc_eq_iff in E. unfold Qeq in E. cbn in E. lia. Qed.
Lemma evaluate_ok {A} (loss : list (list A) -> Qc) bts : forall s c, fold_left (fun s x => (fst s + loss x, S (snd s))) bts (s, c) = (s + total (map loss bts), (c + length bts)%nat).
Proof.
  induction bts as [|x bts IH]; intros s c; cbn [fold_left map total fold_right length].
  - f_equal; [ring|lia].
  - cbn [fst snd]. rewrite IH. fold (total (map loss bts)). f_equal; [ring|lia].
Qed.
(** C122. The average over the batches is the average over the dataset if the batch size divides the size of the dataset. *)
Theorem C122_mean : forall A (f : A -> Qc) (xs : list A) b m fuel, (0 < b)%nat -> (0 < m)%nat -> length xs = (m * b)%nat -> (m <= fuel)%nat ->
  exists bts s c, eval_items fuel [xs] b = Some (Ok bts) /\ evaluate 0 Qcplus (mean_loss f) bts = (s, c) /\ c = m /\
    s / of_nat c = total (map f xs) / of_nat (length xs).
Proof.
  intros A f xs b m fuel Hb Hm Hn Hf.
  assert (Bm : batches_of (length xs) b = m).
  { unfold batches_of. rewrite Hn. replace (m * b + b - 1)%nat with (b - 1 + m * b)%nat by lia. rewrite Nat.div_add by lia. rewrite Nat.div_small by lia. reflexivity. }
  destruct (C122_eval A [xs] (length xs) b) as (bts & E & L & S & C); [|exact Hb|]. { split; [discriminate|]. constructor; [reflexivity|constructor]. }
  rewrite Bm in E, L. specialize (C O xs eq_refl). exists bts, (total (map (mean_loss f) bts)), (length bts). split; [apply E; exact Hf|]. split; [|split; [exact L|]].
  - unfold evaluate. rewrite evaluate_ok. f_equal. ring.
  - assert (B : forall bt, In bt bts -> length (nth 0 bt []) = b).
    { intros bt Hbt. apply In_nth_error in Hbt as [i Hi]. assert (Him : (i < m)%nat) by (rewrite <- L; apply nth_error_Some; congruence).
      destruct (S i bt Hi) as [S1 S2]. destruct bt as [|r [|]]; try discriminate. apply Forall_inv in S2. cbn [nth]. rewrite S2. apply Nat.min_l. rewrite Hn.
      assert ((i + 1) * b <= m * b)%nat by (apply Nat.mul_le_mono_r; lia). lia. }
    assert (T : total (map (mean_loss f) bts) = total (map f xs) / of_nat b).
    { rewrite <- C. clear - B Hb. induction bts as [|bt bts IH].
      - cbn. unfold total. cbn. field. apply of_nat_pos. exact Hb.
      - cbn [map concat]. rewrite map_app, total_app. change (total (mean_loss f bt :: map (mean_loss f) bts)) with (mean_loss f bt + total (map (mean_loss f) bts)).
        rewrite IH by (intros; apply B; right; assumption). unfold mean_loss at 1. rewrite (B bt (or_introl eq_refl)). field. apply of_nat_pos. exact Hb. }
    rewrite T, L, Hn, of_nat_mul. field. split; apply of_nat_pos; assumption.
Qed.
Print Assumptions C122_mean.
(** Otherwise the last, smaller batch counts as much as the others. *)
Theorem C122_mean_refuted : exists (xs : list Qc) b bts s c, (0 < b < length xs)%nat /\ eval_items 10 [xs] b = Some (Ok bts) /\
  evaluate 0 Qcplus (mean_loss (fun x => x)) bts = (s, c) /\ s / of_nat c <> total xs / of_nat (length xs).
Proof.
  exists [0; 0; of_nat 6], 2%nat. do 3 eexists. split; [cbn; lia|]. split; [reflexivity|]. split; [unfold evaluate; cbn [fold_left fst snd]; reflexivity|].
  intros E. apply (f_equal this) in E. vm_compute in E. discriminate.
Qed.
Print Assumptions C122_mean_refuted.

(** ** Examples *)
Definition ex_perm (e : nat) : list nat := if Nat.even e then [2; 0; 4; 1; 3]%nat else [0; 1; 2; 3; 4]%nat.
Example C122_ex : train_items ex_perm 20 [[10; 11; 12; 13; 14]; [20; 21; 22; 23; 24]]%nat 2 3 =
  Some (Ok [[[12; 10]; [22; 20]]; [[14; 11]; [24; 21]]; [[10; 11]; [20; 21]]]%nat).
Proof. reflexivity. Qed.
Example C122_ex_hyps : sized nat 5 [[10; 11; 12; 13; 14]; [20; 21; 22; 23; 24]]%nat /\ shuffles ex_perm 5.
Proof.
  split; [split; [discriminate|repeat constructor]|]. intros e. unfold ex_perm. destruct (Nat.even e); [|apply Permutation_refl].
  apply NoDup_Permutation; [repeat constructor; cbn; intuition discriminate|apply seq_NoDup|]. intros x. cbn. intuition.
Qed.
Example C122_ex_eval : eval_items 20 [[10; 11; 12; 13; 14]]%nat 2 = Some (Ok [[[10; 11]]; [[12; 13]]; [[14]]]%nat).
Proof. reflexivity. Qed.
Example C122_ex_diffusion : diffusion_items ex_perm 20 [10; 11; 12; 13; 14]%nat 2 3 = Some (Ok [[12; 10]; [14; 11]; [10; 11]]%nat) /\
  diffusion_items (fun _ => [3; 0; 2; 1]%nat) 20 [10; 11; 12; 13]%nat 2 3 = Some (Ok [[13; 10]; [13; 10]; [13; 10]]%nat).
Proof. split; reflexivity. Qed.
