(** C127: the vision transformer example. *)
From Coq Require Import Lia QArith Permutation.
From Verif Require Import Attention_Spec Attention_Proofs Attention_Props Vit_Model.
Local Open Scope nat_scope.
Local Open Scope list_scope.

(** ** Patches *)
Lemma flat_map_length {A B} (f : A -> list B) n : forall l, (forall a, In a l -> length (f a) = n) -> length (flat_map f l) = length l * n.
Proof.
  induction l as [|a l IH]; intros H; [reflexivity|]. cbn [flat_map length]. rewrite app_length, IH by (intros b Hb; apply H; right; exact Hb).
  rewrite (H a) by (left; reflexivity). reflexivity.
Qed.
Lemma nth_flat_map {A B} (f : A -> list B) n da db : forall l i j, (forall a, In a l -> length (f a) = n) -> i < length l -> j < n ->
  nth (i * n + j) (flat_map f l) db = nth j (f (nth i l da)) db.
Proof.
  induction l as [|a l IH]; intros i j H Hi Hj; [cbn in Hi; lia|]. assert (Ha : length (f a) = n) by (apply H; left; reflexivity). cbn [flat_map].
  destruct i as [|i]; [cbn [nth Nat.mul Nat.add]; apply app_nth1; lia|]. rewrite app_nth2 by (rewrite Ha; cbn [Nat.mul]; lia). rewrite Ha.
  replace (S i * n + j - n) with (i * n + j) by (cbn [Nat.mul]; lia). cbn [nth]. apply IH; [intros; apply H; right; assumption|cbn in Hi; lia|exact Hj].
Qed.
Lemma nth_map_seq' {B} (f : nat -> B) n i d : i < n -> nth i (map f (seq 0 n)) d = f i.
Proof. apply nth_map_seq. Qed.

(** Every pixel is in the row of its patch, at its place in the patch; there is no room for anything else. *)
Theorem C127_patches : forall V p (x : image V) dflt, 0 < p ->
  (rearrange p x = Err (OtherError 0) <-> height x mod p <> 0 \/ width x mod p <> 0) /\
  (forall e, rearrange p x = Err e -> e = OtherError 0) /\
  forall ps, rearrange p x = Ok ps ->
    length ps = height x / p * (width x / p) /\
    (forall r, In r ps -> length r = channels x * (p * p)) /\
    (forall c i j, c < channels x -> i < height x -> j < width x ->
       nth (c * (p * p) + (i mod p * p + j mod p)) (nth (i / p * (width x / p) + j / p) ps []) dflt = pixel x c i j).
Proof.
  intros V p x dflt Hp. unfold rearrange.
  destruct (Nat.eqb_spec (height x mod p) 0) as [Eh|Eh]; cbn [negb andb];
    [destruct (Nat.eqb_spec (width x mod p) 0) as [Ew|Ew]; cbn [negb andb]|].
  2, 3: split; [split; auto|]; split; [intros e H; injection H as <-; reflexivity|intros ps H; discriminate].
  split; [split; [discriminate|intros [H|H]; contradiction]|]. split; [discriminate|]. intros ps H. injection H as <-.
  set (row := fun h w => flat_map (fun c => flat_map (fun i => map (fun j => pixel x c (h * p + i) (w * p + j)) (seq 0 p)) (seq 0 p)) (seq 0 (channels x))).
  assert (L1 : forall c h w i, length (map (fun j => pixel x c (h * p + i) (w * p + j)) (seq 0 p)) = p) by (intros; rewrite map_length, seq_length; reflexivity).
  assert (L2 : forall h w c, length (flat_map (fun i => map (fun j => pixel x c (h * p + i) (w * p + j)) (seq 0 p)) (seq 0 p)) = p * p).
  { intros h w c. rewrite (flat_map_length _ p) by (intros; apply L1). rewrite seq_length. reflexivity. }
  assert (L3 : forall h w, length (row h w) = channels x * (p * p)).
  { intros h w. unfold row. rewrite (flat_map_length _ (p * p)) by (intros; apply L2). rewrite seq_length. reflexivity. }
  assert (L4 : forall h, length (map (row h) (seq 0 (width x / p))) = width x / p) by (intros; rewrite map_length, seq_length; reflexivity).
  split; [|split].
  - change (length (flat_map (fun h => map (row h) (seq 0 (width x / p))) (seq 0 (height x / p))) = height x / p * (width x / p)).
    rewrite (flat_map_length _ (width x / p)) by (intros; apply L4). rewrite seq_length. reflexivity.
  - intros r Hr. apply in_flat_map in Hr as (h & _ & Hr). apply in_map_iff in Hr as (w & <- & _). apply L3.
  - intros c i j Hc Hi Hj. assert (P0 : p <> 0) by lia.
    assert (Hi' : i / p < height x / p) by (apply Nat.div_lt_upper_bound; [exact P0|]; rewrite <- (Nat.div_exact _ _ P0) in Eh; lia).
    assert (Hj' : j / p < width x / p) by (apply Nat.div_lt_upper_bound; [exact P0|]; rewrite <- (Nat.div_exact _ _ P0) in Ew; lia).
    pose proof (Nat.mod_upper_bound i p P0). pose proof (Nat.mod_upper_bound j p P0).
    change (nth (c * (p * p) + (i mod p * p + j mod p)) (nth (i / p * (width x / p) + j / p) (flat_map (fun h => map (row h) (seq 0 (width x / p))) (seq 0 (height x / p))) []) dflt = pixel x c i j).
    rewrite (nth_flat_map _ (width x / p) 0) by (try (intros; apply L4); try rewrite seq_length; assumption).
    rewrite seq_nth by assumption. rewrite nth_map_seq by assumption. unfold row.
    assert (I2 : i mod p * p + j mod p < p * p) by (apply Nat.lt_le_trans with (S (i mod p) * p); [cbn [Nat.mul]; lia|apply Nat.mul_le_mono_r; lia]).
    rewrite (nth_flat_map _ (p * p) 0) by (try (intros; apply L2); try rewrite seq_length; assumption).
    rewrite seq_nth by assumption. rewrite (nth_flat_map _ p 0) by (try (intros; apply L1); try rewrite seq_length; assumption).
    rewrite seq_nth by assumption. rewrite nth_map_seq by assumption. cbn [Nat.add]. f_equal.
    + rewrite (Nat.mul_comm (i / p)). symmetry. apply Nat.div_mod. exact P0.
    + rewrite (Nat.mul_comm (j / p)). symmetry. apply Nat.div_mod. exact P0.
Qed.
Print Assumptions C127_patches.
Example C127_patches_ex : rearrange 2 (mk_image 1 4 4 (fun _ i j => 10 * i + j)) = Ok [[0; 1; 10; 11]; [2; 3; 12; 13]; [20; 21; 30; 31]; [22; 23; 32; 33]].
Proof. reflexivity. Qed.

(** ** Keys *)
Lemma psplit_S key n : psplit key (n + 1) = (key ++ [0]) :: map (fun i => key ++ [S i]) (seq 0 n).
Proof. unfold psplit. rewrite Nat.add_1_r. cbn [seq map]. f_equal. rewrite <- seq_shift, map_map. reflexivity. Qed.
Lemma dropout_keys_eq layers key : dropout_keys layers key = (key ++ [0]) :: flat_map (fun i => [key ++ [S i; 0]; key ++ [S i; 1]]) (seq 0 layers).
Proof.
  unfold dropout_keys. rewrite psplit_S. f_equal. rewrite flat_map_concat_map, map_map, flat_map_concat_map. f_equal. apply map_ext. intros i.
  unfold psplit. cbn [seq map]. rewrite <- !app_assoc. reflexivity.
Qed.
Lemma train_keys_eq batch : forall steps key, train_keys steps batch key = map (fun t => map (fun i => key ++ repeat 0 t ++ [S i]) (seq 0 batch)) (seq 0 steps).
Proof.
  induction steps as [|s IH]; intros key; [reflexivity|]. cbn [train_keys]. rewrite psplit_S. cbn [seq map]. f_equal.
  - rewrite IH, <- seq_shift, map_map. apply map_ext. intros t. apply map_ext. intros i. cbn [repeat]. rewrite <- app_assoc. reflexivity.
Qed.
Lemma NoDup_flat {A B} (f : A -> list B) : forall l, NoDup l -> (forall a, In a l -> NoDup (f a)) -> (forall a a' b, In a l -> In a' l -> In b (f a) -> In b (f a') -> a = a') -> NoDup (flat_map f l).
Proof.
  induction l as [|a l IH]; intros HN H1 H2; [constructor|]. inversion HN; subst. cbn [flat_map].
  assert (G : NoDup (flat_map f l)) by (apply IH; [assumption|intros; apply H1; right; assumption|intros x x' b Hx Hx'; apply H2; right; assumption]).
  assert (D : forall b, In b (f a) -> ~ In b (flat_map f l)).
  { intros b Hb Hl. apply in_flat_map in Hl as (a' & Ha' & Hb'). assert (a = a') by (apply (H2 a a' b); cbn; auto). subst a'. contradiction. }
  assert (F : NoDup (f a)) by (apply H1; left; reflexivity). clear - F G D. induction (f a) as [|b r IH]; [exact G|]. cbn [app]. inversion F; subst. constructor.
  - intros H. apply in_app_iff in H as [H|H]; [contradiction|]. apply (D b); cbn; auto.
  - apply IH; [|assumption]. intros c Hc. apply D. right. exact Hc.
Qed.
Lemma dropout_keys_NoDup layers key : NoDup (dropout_keys layers key).
Proof.
  rewrite dropout_keys_eq. constructor.
  - intros H. apply in_flat_map in H as (i & _ & [H|[H|[]]]); apply app_inv_head in H; discriminate.
  - apply NoDup_flat; [apply seq_NoDup| |].
    + intros i _. constructor; [intros [H|[]]; apply app_inv_head in H; discriminate|]. constructor; [intros []|constructor].
    + intros i i' b _ _ [<-|[<-|[]]] [H|[H|[]]]; apply app_inv_head in H; congruence.
Qed.
Lemma zeros_inj : forall t t' i i' (r r' : path), repeat 0 t ++ S i :: r = repeat 0 t' ++ S i' :: r' -> t = t' /\ i = i' /\ r = r'.
Proof.
  induction t as [|t IH]; intros [|t'] i i' r r' H; cbn in H; try discriminate; injection H; intros; subst; auto.
  apply IH in H0 as (-> & -> & ->). auto.
Qed.
Lemma dropout_keys_prefix layers key k : In k (dropout_keys layers key) -> exists r, k = key ++ r.
Proof.
  rewrite dropout_keys_eq. intros [<-|H]; [eauto|]. apply in_flat_map in H as (i & _ & [<-|[<-|[]]]); eauto.
Qed.
(** The layers of a block: each of the six has a key of its own; the attention has no biases. *)
Theorem C127_block : forall V init_w init_b layer_norm d hidden heads key,
  make_block V init_w init_b layer_norm d hidden 0 key = Err ZeroDivisionError /\
  (0 < heads -> exists b, make_block V init_w init_b layer_norm d hidden heads key = Ok b /\ let a := attention V b in let e := heads * (d / heads) in
    weight V (query_proj V a) = init_w (key ++ [0; 0; 0]) e d /\ weight V (key_proj V a) = init_w (key ++ [0; 1; 0]) e d /\
    weight V (value_proj V a) = init_w (key ++ [0; 2; 0]) e d /\ weight V (output_proj V a) = init_w (key ++ [0; 3; 0]) d e /\
    bias V (query_proj V a) = None /\ bias V (key_proj V a) = None /\ bias V (value_proj V a) = None /\ bias V (output_proj V a) = None /\
    weight V (linear1 V b) = init_w (key ++ [1; 0]) hidden d /\ bias V (linear1 V b) = Some (init_b (key ++ [1; 1]) hidden d) /\
    weight V (linear2 V b) = init_w (key ++ [2; 0]) d hidden /\ bias V (linear2 V b) = Some (init_b (key ++ [2; 1]) d hidden) /\
    norm1 V b = layer_norm d /\ norm2 V b = layer_norm d).
Proof.
  intros V init_w init_b layer_norm d hidden heads key. split; [reflexivity|]. intros Hh. destruct heads as [|heads]; [lia|]. eexists. split; [reflexivity|].
  cbn. rewrite <- !app_assoc. cbn [app]. repeat split.
Qed.
Print Assumptions C127_block.

(** During training every use of a dropout layer, for every example of every step, has a key of its own. *)
Theorem C127_train_keys : forall steps batch layers key,
  length (train_keys steps batch key) = steps /\ (forall ks, In ks (train_keys steps batch key) -> length ks = batch) /\
  NoDup (flat_map (dropout_keys layers) (concat (train_keys steps batch key))).
Proof.
  intros steps batch layers key. rewrite train_keys_eq. split; [rewrite map_length, seq_length; reflexivity|]. split.
  { intros ks H. apply in_map_iff in H as (t & <- & _). rewrite map_length, seq_length. reflexivity. }
  rewrite <- flat_map_concat_map. apply NoDup_flat.
  - apply NoDup_flat; [apply seq_NoDup| |].
    + intros t _. apply (FinFun.Injective_map_NoDup (f := fun i => key ++ repeat 0 t ++ [S i])); [|apply seq_NoDup].
      intros i i' H. apply app_inv_head in H. apply zeros_inj in H as (_ & H & _). exact H.
    + intros t t' b _ _ H H'. apply in_map_iff in H as (i & <- & _), H' as (i' & H & _). apply app_inv_head in H. apply zeros_inj in H as (H & _). auto.
  - intros k _. apply dropout_keys_NoDup.
  - intros k k' b Hk Hk' Hb Hb'. apply in_flat_map in Hk as (t & _ & Hk), Hk' as (t' & _ & Hk'). apply in_map_iff in Hk as (i & <- & _), Hk' as (i' & <- & _).
    apply dropout_keys_prefix in Hb as (r & ->), Hb' as (r' & H). rewrite <- !app_assoc in H. apply app_inv_head in H. cbn [app] in H. apply zeros_inj in H as (-> & -> & _). reflexivity.
Qed.
Print Assumptions C127_train_keys.
Example C127_train_keys_ex : train_keys 2 2 [9] = [[[9; 1]; [9; 2]]; [[9; 0; 1]; [9; 0; 2]]] /\ dropout_keys 1 [5] = [[5; 0]; [5; 1; 0]; [5; 1; 1]].
Proof. split; reflexivity. Qed.

(** ** Batches *)
Lemma skipn_add {A} a : forall b (l : list A), skipn a (skipn b l) = skipn (b + a) l.
Proof. induction b as [|b IH]; intros [|x l]; cbn [skipn Nat.add]; auto. apply skipn_nil. Qed.
Lemma batches_nth {A} size : forall count (l : list A) k, k < count -> nth k (batches count size l) [] = firstn size (skipn (k * size) l).
Proof.
  induction count as [|c IH]; intros l k H; [lia|]. destruct k as [|k]; [reflexivity|]. cbn [batches nth Nat.mul]. rewrite IH by lia.
  rewrite skipn_add. reflexivity.
Qed.
Lemma batches_length {A} size : forall count (l : list A), length (batches count size l) = count.
Proof. induction count as [|c IH]; intros l; [reflexivity|]. cbn [batches length]. rewrite IH. reflexivity. Qed.
Lemma steps_ok {A} size (orders : nat -> list A) nb : 0 < nb -> (forall e, length (epoch size (orders e)) = nb) ->
  forall steps fuel e rest, steps <= fuel -> exists l, steps_of fuel size orders steps e rest = Some l /\ length l = steps /\
    forall t, t < steps -> nth t l [] = if t <? length rest then nth t rest [] else nth ((t - length rest) mod nb) (epoch size (orders (e + (t - length rest) / nb))) [].
Proof.
  intros Hnb HE. induction steps as [|s IH]; intros fuel e rest HF; [exists []; split; [reflexivity|]; split; [reflexivity|]; intros t Ht; lia|].
  destruct rest as [|b rest].
  - destruct fuel as [|fuel]; [lia|]. cbn [steps_of]. pose proof (HE e) as Le. destruct (epoch size (orders e)) as [|b rest] eqn:E; [cbn in Le; lia|].
    destruct (IH fuel (S e) rest) as (l & -> & Hl & Hn); [lia|]. cbn [option_map]. exists (b :: l). split; [reflexivity|]. split; [cbn; congruence|].
    intros t Ht. cbn [length Nat.ltb Nat.leb]. rewrite Nat.sub_0_r. destruct t as [|t].
    + cbn [nth]. rewrite Nat.mod_0_l, Nat.div_0_l, Nat.add_0_r, E by lia. reflexivity.
    + cbn [nth]. rewrite Hn by lia. cbn [length] in Le. destruct (Nat.ltb_spec t (length rest)) as [H|H].
      * rewrite Nat.mod_small, Nat.div_small, Nat.add_0_r, E by lia. reflexivity.
      * replace (S t) with ((t - length rest) + 1 * nb) by lia. rewrite Nat.mod_add, Nat.div_add by lia. f_equal. f_equal. f_equal. lia.
  - cbn [steps_of]. destruct (IH fuel e rest) as (l & -> & Hl & Hn); [lia|]. cbn [option_map]. exists (b :: l). split; [reflexivity|]. split; [cbn; congruence|].
    intros t Ht. destruct t as [|t]; [reflexivity|]. cbn [nth length]. rewrite Hn by lia. reflexivity.
Qed.
Lemma steps_none {A} size (orders : nat -> list A) : (forall e, epoch size (orders e) = []) -> forall fuel steps e, steps_of fuel size orders (S steps) e [] = None.
Proof.
  intros HE fuel steps. cbn [steps_of]. induction fuel as [|f IH]; intros e; [reflexivity|]. rewrite HE. apply IH.
Qed.
(** Step [t] is batch [t mod nb] of epoch [t / nb], [nb] the whole batches in the data set; with none, training never starts and never ends. *)
Theorem C127_train_batches : forall A size (orders : nat -> list A) n steps, (forall e, length (orders e) = n) -> 0 < size ->
  (size <= n -> exists l, (forall fuel, steps <= fuel -> train_batches fuel size orders steps = Some l) /\ length l = steps /\
     forall t, t < steps -> length (nth t l []) = size /\
       nth t l [] = firstn size (skipn ((t mod (n / size)) * size) (orders (t / (n / size))))) /\
  (n < size -> 0 < steps -> forall fuel, train_batches fuel size orders steps = None).
Proof.
  intros A size orders n steps HO HS. assert (S0 : size <> 0) by lia.
  assert (HE : forall e, length (epoch size (orders e)) = n / size) by (intros e; unfold epoch; rewrite batches_length, HO; reflexivity). split.
  - intros Hn. assert (Hnb : 0 < n / size) by (apply Nat.div_str_pos; lia). unfold train_batches.
    destruct (steps_ok size orders _ Hnb HE steps steps 0 [] (le_n _)) as (l & El & Hl & Ht). exists l. split; [|split; [exact Hl|]].
    + intros fuel HF. destruct (steps_ok size orders _ Hnb HE steps fuel 0 [] HF) as (l' & El' & Hl' & Ht'). rewrite El'. f_equal. apply (nth_ext _ _ [] []); [congruence|].
      intros t H. rewrite Ht', Ht by lia. reflexivity.
    + intros t H. rewrite Ht by exact H. cbn [length Nat.ltb Nat.leb]. rewrite Nat.sub_0_r. cbn [Nat.add]. unfold epoch at 1 2. rewrite HO.
      pose proof (Nat.mod_upper_bound t (n / size) ltac:(lia)) as Hm. rewrite batches_nth by exact Hm. split; [|reflexivity].
      rewrite firstn_length, skipn_length, HO. apply Nat.min_l.
      assert (S (t mod (n / size)) * size <= n); [|cbn [Nat.mul] in *; lia].
      etransitivity; [apply Nat.mul_le_mono_r; exact Hm|]. rewrite Nat.mul_comm. apply Nat.mul_div_le. exact S0.
  - intros Hn Hs fuel. destruct steps as [|s]; [lia|]. apply steps_none. intros e. specialize (HE e). rewrite (Nat.div_small n size Hn) in HE. destruct (epoch size (orders e)); [reflexivity|discriminate].
Qed.
Print Assumptions C127_train_batches.
Example C127_train_batches_ex : train_batches 9 2 (fun e => if Nat.even e then [0; 1; 2; 3; 4] else [4; 3; 2; 1; 0]) 5 = Some [[0; 1]; [2; 3]; [4; 3]; [2; 1]; [0; 1]].
Proof. reflexivity. Qed.

(** Testing takes the first batch of a new shuffle every time ... *)
Theorem C127_test_batches : forall A count size (orders : nat -> list A) n, (forall e, length (orders e) = n) -> 0 < size <= n ->
  test_batches count size orders = Ok (map (fun i => firstn size (orders i)) (seq 0 count)).
Proof.
  intros A count size orders n HO HS. unfold test_batches. apply mapM_ok_map. intros i _. unfold epoch. rewrite HO.
  assert (Hnb : 0 < n / size) by (apply Nat.div_str_pos; lia). destruct (n / size); [lia|]. reflexivity.
Qed.
Print Assumptions C127_test_batches.
(** ... so that, with as many batches as there are in the data set, some example may be seen in every batch and others never. *)
Theorem C127_test_once_refuted : exists size n (orders : nat -> list nat) bs, (forall e, Permutation (orders e) (seq 0 n)) /\ n = n / size * size /\
  test_batches (n / size) size orders = Ok bs /\ (forall b, In b bs -> In 0 b) /\ 1 < length bs /\ ~ In 3 (concat bs).
Proof.
  exists 2, 4, (fun e => if Nat.even e then [0; 1; 2; 3] else [1; 0; 3; 2]), [[0; 1]; [1; 0]].
  split; [|split; [reflexivity|split; [reflexivity|split; [|split; [cbn; lia|cbn; lia]]]]].
  - intros e. destruct (Nat.even e); [apply Permutation_refl|]. cbn [seq]. apply perm_trans with [0; 1; 3; 2]; [apply perm_swap|]. do 2 apply perm_skip. apply perm_swap.
  - intros b [<-|[<-|[]]]; cbn; auto.
Qed.
Print Assumptions C127_test_once_refuted.

(** The mean of the means is the proportion of right answers, the batches being of one size. *)
Definition count_right {A} (right : A -> bool) (l : list A) : nat := length (filter right l).
Lemma sum_right {A} (right : A -> bool) l : (fold_right Qplus 0 (map (fun a => if right a then 1 else 0) l) == inject_Z (Z.of_nat (count_right right l)))%Q.
Proof.
  induction l as [|a l IH]; [reflexivity|]. unfold count_right in *. cbn [map fold_right filter]. rewrite IH. destruct (right a); cbn [length].
  - rewrite Nat2Z.inj_succ, <- Z.add_1_l, inject_Z_plus. reflexivity.
  - apply Qplus_0_l.
Qed.
Theorem C127_accuracy : forall A (right : A -> bool) size bs, 0 < size -> bs <> [] -> (forall b, In b bs -> length b = size) ->
  (accuracy right bs == inject_Z (Z.of_nat (count_right right (concat bs))) / inject_Z (Z.of_nat (length (concat bs))))%Q.
Proof.
  intros A right size bs HS HB HL.
  assert (E : (fold_right Qplus 0 (map (fun b => mean (map (fun a => if right a then 1%Q else 0%Q) b)) bs) == inject_Z (Z.of_nat (count_right right (concat bs))) / inject_Z (Z.of_nat size))%Q).
  { clear HB. induction bs as [|b bs IH]; [reflexivity|]. cbn [map fold_right concat]. rewrite IH by (intros; apply HL; right; assumption).
    unfold mean. rewrite sum_right, map_length, (HL b) by (left; reflexivity). unfold count_right. rewrite filter_app, app_length, Nat2Z.inj_add, inject_Z_plus.
    unfold Qdiv. rewrite Qmult_plus_distr_l. reflexivity. }
  assert (LC : length (concat bs) = length bs * size).
  { clear - HL. induction bs as [|b bs IH]; [reflexivity|]. cbn [concat length]. rewrite app_length, IH by (intros; apply HL; right; assumption). rewrite (HL b) by (left; reflexivity). reflexivity. }
  unfold accuracy. unfold mean at 1. rewrite E, map_length, LC, Nat2Z.inj_mul, inject_Z_mult. 
  assert (N : forall k, 0 < k -> ~ (inject_Z (Z.of_nat k) == 0)%Q) by (intros k Hk H; unfold Qeq in H; cbn in H; lia).
  field. split; apply N; [exact HS|destruct bs; [congruence|cbn; lia]].
Qed.
Print Assumptions C127_accuracy.
Example C127_accuracy_ex : (accuracy Nat.even [[0; 2]; [4; 5]]%nat == 3 # 4)%Q.
Proof. reflexivity. Qed.

(** ** The transformer *)
(** The rows numbered by [p]. *)
Definition at_rows {A} (d : A) (p : list nat) (l : list A) : list A := map (fun i => nth i l d) p.
Lemma nth_at_rows {A} (d : A) p l i : i < length p -> nth i (at_rows d p l) d = nth (nth i p 0) l d.
Proof. intros H. unfold at_rows. rewrite (nth_indep _ d (nth 0 l d)) by (rewrite map_length; exact H). rewrite (map_nth (fun i => nth i l d)). reflexivity. Qed.
Lemma at_rows_seq {A} (d : A) p l : at_rows d p l = map (fun s => nth (nth s p 0) l d) (seq 0 (length p)).
Proof. unfold at_rows. rewrite <- (map_nth_seq p 0) at 1. rewrite map_map. reflexivity. Qed.
Lemma mapM_nth {A B} (f : A -> res B) da db : forall l r i, mapM f l = Ok r -> i < length l -> f (nth i l da) = Ok (nth i r db).
Proof.
  induction l as [|a l IH]; intros r i H Hi; cbn [mapM length] in *; [lia|]. apply bind_ok in H as (b & Hb & H). apply bind_ok in H as (r' & Hr & H). injection H as <-.
  destruct i as [|i]; [exact Hb|]. apply (IH r' i Hr). lia.
Qed.
Lemma mapM_len {A B} (f : A -> res B) : forall l r, mapM f l = Ok r -> length r = length l.
Proof.
  induction l as [|a l IH]; intros r H; cbn [mapM] in H; [injection H as <-; reflexivity|]. apply bind_ok in H as (b & Hb & H). apply bind_ok in H as (r' & Hr & H). injection H as <-.
  cbn [length]. rewrite (IH r' Hr). reflexivity.
Qed.
Lemma mapM_at {A B} (f : A -> res B) da db l r p : mapM f l = Ok r -> (forall i, In i p -> i < length l) -> mapM f (at_rows da p l) = Ok (at_rows db p r).
Proof.
  intros H Hp. unfold at_rows. induction p as [|i p IH]; [reflexivity|]. cbn [map mapM]. rewrite (mapM_nth f da db l r i H) by (apply Hp; left; reflexivity). cbn [bind].
  rewrite IH by (intros; apply Hp; right; assumption). reflexivity.
Qed.
Lemma mapM_In {A B} (f : A -> res B) : forall l r b, mapM f l = Ok r -> In b r -> exists a, In a l /\ f a = Ok b.
Proof.
  induction l as [|a l IH]; intros r b H Hb; cbn [mapM] in H; [injection H as <-; destruct Hb|]. apply bind_ok in H as (c & Hc & H). apply bind_ok in H as (r' & Hr & H). injection H as <-.
  destruct Hb as [<-|Hb]; [exists a; split; [left; reflexivity|exact Hc]|]. destruct (IH r' b Hr Hb) as (x & Hx & Hf). exists x. split; [right; exact Hx|exact Hf].
Qed.

Section Vit.
  Variables (V : Type) (zero : V) (add mul sub div vmax : V -> V -> V) (exp gelu : V -> V) (sqrt : nat -> V) (fmin : V).
  Notation mat := (list (list V)).
  Notation block := (block V). Notation vit := (vit V).
  Notation mha_call := (call_mha V path zero add mul sub div vmax exp sqrt fmin psplit (fun _ w => Ok w)).
  Notation call := (call_vit V zero add mul sub div vmax exp gelu sqrt fmin).
  Notation call_block := (call_block V zero add mul sub div vmax exp gelu sqrt fmin).
  Notation call_blocks := (call_blocks V zero add mul sub div vmax exp gelu sqrt fmin).
  Notation add_rows := (add_rows V add).
  Notation rect := (rect V).

  (** The keys of [dropout_keys], and no others, are given to the dropout layers; none without dropout. *)
  Lemma call_block_keys (drop1 drop2 : path -> mat -> mat) en b x key : (en = true -> forall k, In k (psplit key 2) -> drop1 k = drop2 k) -> call_block drop1 en b x key = call_block drop2 en b x key.
  Proof using.
    intros H. unfold Vit_Model.call_block. destruct (mapM (norm1 V b) x); cbn [bind]; [|reflexivity]. destruct (mha_call (attention V b) a a a NoMask None None); cbn [bind]; [|reflexivity].
    destruct (mapM (norm2 V b) (add_rows x a0)); cbn [bind]; [|reflexivity]. destruct (through V zero add mul (linear1 V b) a1); cbn [bind]; [|reflexivity].
    unfold psplit in *. cbn [seq map] in *. unfold drop. destruct en; [|reflexivity]. rewrite !H by (cbn; auto). reflexivity.
  Qed.
  Theorem C127_call_keys : forall (drop1 drop2 : path -> mat -> mat) v en img key,
    NoDup (dropout_keys (num_layers V v) key) /\ length (dropout_keys (num_layers V v) key) = 1 + 2 * num_layers V v /\
    ((en = true -> forall k, In k (dropout_keys (num_layers V v) key) -> drop1 k = drop2 k) -> call drop1 v en img key = call drop2 v en img key).
  Proof using.
    intros drop1 drop2 v en img key. split; [apply dropout_keys_NoDup|]. split.
    { rewrite dropout_keys_eq. cbn [length]. rewrite (flat_map_length _ 2), seq_length by reflexivity. lia. }
    unfold dropout_keys, call_vit. destruct (psplit key (num_layers V v + 1)) as [|d ks]; [reflexivity|]. intros H.
    destruct (rearrange (patch_size V v) img); cbn [bind]; [|reflexivity]. destruct (through V zero add mul (embedding V v) a) as [x0|]; cbn [bind]; [|reflexivity].
    destruct (add_positional V add (positional V v) (cls_token V v :: x0)) as [x|]; cbn [bind]; [|reflexivity].
    assert (E : call_blocks drop1 en (blocks V v) ks (drop V drop1 en d x) = call_blocks drop2 en (blocks V v) ks (drop V drop2 en d x)).
    { assert (E0 : drop V drop1 en d x = drop V drop2 en d x) by (unfold drop; destruct en; [rewrite (H eq_refl d (or_introl eq_refl))|]; reflexivity). rewrite E0.
      assert (H' : en = true -> forall k, In k (flat_map (fun k => psplit k 2) ks) -> drop1 k = drop2 k) by (intros He k Hk; apply (H He k); right; exact Hk).
      clear - H'. generalize (drop V drop2 en d x). revert ks H'. induction (blocks V v) as [|b bs IH]; intros [|k ks] H y; try reflexivity. cbn [Vit_Model.call_blocks].
      rewrite (call_block_keys drop1 drop2) by (intros He k' Hk'; apply (H He k'); cbn [flat_map]; apply in_app_iff; left; exact Hk').
      destruct (call_block drop2 en b y k); cbn [bind]; [|reflexivity]. apply IH. intros He k' Hk'. apply (H He k'). cbn [flat_map]. apply in_app_iff. right. exact Hk'. }
    rewrite E. reflexivity.
  Qed.
  (** Without dropout the key does not matter. *)
  Theorem C127_inference : forall drop1 drop2 v img key1 key2, call drop1 v false img key1 = call drop2 v false img key2.
  Proof using.
    intros drop1 drop2 v img key1 key2. unfold call_vit. rewrite !psplit_S. destruct (rearrange (patch_size V v) img); cbn [bind]; [|reflexivity].
    destruct (through V zero add mul (embedding V v) a) as [x0|]; cbn [bind]; [|reflexivity]. destruct (add_positional V add (positional V v) (cls_token V v :: x0)) as [x|]; cbn [bind]; [|reflexivity].
    cbn [drop]. assert (E : forall bs ks1 ks2 y, length ks1 = length ks2 -> call_blocks drop1 false bs ks1 y = call_blocks drop2 false bs ks2 y).
    { induction bs as [|b bs IH]; intros [|k1 ks1] [|k2 ks2] y HL; try discriminate; try reflexivity. cbn [Vit_Model.call_blocks].
      assert (Eb : call_block drop1 false b y k1 = call_block drop2 false b y k2) by reflexivity. rewrite Eb. destruct (call_block drop2 false b y k2); cbn [bind]; [|reflexivity]. apply IH. cbn in HL. lia. }
    rewrite (E _ _ (map (fun i => key2 ++ [S i]) (seq 0 (num_layers V v)))) by (rewrite !map_length; reflexivity). reflexivity.
  Qed.
  Section Numbers.
    Hypothesis add_assoc : forall x y z, add x (add y z) = add (add x y) z.
    Hypothesis add_0_l : forall x, add zero x = x.

    Definition square (m : mha V) (d : nat) : Prop := mha_ok V m /\ query_size V m = d /\ key_size V m = d /\ value_size V m = d /\ output_size V m = d.
    Definition width_kept (d : nat) (f : list V -> res (list V)) : Prop := forall r r', f r = Ok r' -> length r' = d.
    Lemma self_rect m d x a : square m d -> rect (length x) d x -> mha_call m x x x NoMask None None = Ok a -> rect (length x) d a.
    Proof using add_assoc add_0_l.
      intros (Hm & Hq & Hk & Hv & Ho) [_ Hx] Ha.
      pose proof (fun D => C69_formula V path zero add mul sub div vmax exp sqrt fmin psplit (fun _ _ _ => []) (fun _ _ _ => []) (fun _ w => Ok w) add_assoc add_0_l m x x x
        NoMask None D Hm ltac:(rewrite Hq; split; [reflexivity | exact Hx]) ltac:(rewrite Hk; split; [reflexivity | exact Hx])
        ltac:(rewrite Hv; split; [reflexivity | exact Hx]) I) as F. cbv zeta in F. rewrite (F _ (fun i _ => eq_refl)) in Ha. injection Ha as <-. rewrite Ho. apply tab_rect.
    Qed.
    Section Permutation.
      Hypothesis add_comm : forall x y, add x y = add y x.
      Hypothesis vmax_assoc : forall x y z, vmax x (vmax y z) = vmax (vmax x y) z.
      Hypothesis vmax_comm : forall x y, vmax x y = vmax y x.
      Notation pick := (at_rows (@nil V)).
      Lemma perm_lt {p n} : Permutation p (seq 0 n) -> forall i, In i p -> i < n.
      Proof using. intros H i Hi. apply (Permutation_in _ H) in Hi. apply in_seq in Hi. clear - Hi. lia. Qed.
      Lemma self_pick m d x a p : square m d -> rect (length x) d x -> Permutation p (seq 0 (length x)) ->
        mha_call m x x x NoMask None None = Ok a -> mha_call m (pick p x) (pick p x) (pick p x) NoMask None None = Ok (pick p a).
      Proof using add_assoc add_0_l add_comm vmax_assoc vmax_comm.
        intros (Hm & Hq & Hk & Hv & Ho) [_ Hx] Hp Ha. assert (Lp : length p = length x) by (rewrite (Permutation_length Hp), seq_length; reflexivity).
        assert (Lx : length (pick p x) = length x) by (unfold at_rows; rewrite map_length; exact Lp).
        assert (Hx' : forall r, In r (pick p x) -> length r = d). { intros r Hr. apply in_map_iff in Hr as (i & <- & Hi). apply Hx, nth_In, (perm_lt Hp), Hi. }
        assert (R : forall n, n = d -> rect (length x) n x) by (intros n ->; split; [reflexivity|exact Hx]).
        assert (R' : forall n, n = d -> rect (length (pick p x)) n (pick p x)) by (intros n ->; split; [reflexivity|exact Hx']).
        etransitivity; [exact (C69_permutation V path zero add mul sub div vmax exp sqrt fmin psplit (fun _ _ _ => []) (fun _ _ _ => []) (fun _ w => Ok w) add_assoc add_0_l add_comm vmax_assoc vmax_comm
           (fun _ _ => eq_refl) m (pick p x) x x NoMask None p Hm (R' _ Hq) (R _ Hk) (R _ Hv) I Hp)|].
        pose proof (fun D => C69_formula V path zero add mul sub div vmax exp sqrt fmin psplit (fun _ _ _ => []) (fun _ _ _ => []) (fun _ w => Ok w) add_assoc add_0_l m x x x
          NoMask None D Hm (R _ Hq) (R _ Hk) (R _ Hv) I) as F. cbv zeta in F. rewrite (F _ (fun i _ => eq_refl)) in Ha. clear F. injection Ha as <-.
        pose proof (fun D => C69_formula V path zero add mul sub div vmax exp sqrt fmin psplit (fun _ _ _ => []) (fun _ _ _ => []) (fun _ w => Ok w) add_assoc add_0_l m (pick p x) x x
          NoMask None D Hm (R' _ Hq) (R _ Hk) (R _ Hv) I) as F. cbv zeta in F. rewrite (F _ (fun i _ => eq_refl)). clear F. f_equal.
        rewrite Lx. match goal with |- _ = pick p ?T => rewrite (at_rows_seq [] p T) end. rewrite Lp. unfold Attention_Spec.tab at 1. apply map_seq_ext. intros s Hs.
        assert (Hs' : s < length x) by (clear - Hs; lia). assert (Hps : nth s p 0 < length x) by (apply (perm_lt Hp), nth_In; rewrite Lp; exact Hs').
        rewrite tab_row by exact Hps. apply map_ext. intros o. assert (En : nth s (pick p x) [] = nth (nth s p 0) x []) by (apply nth_at_rows; rewrite Lp; exact Hs').
        unfold Attention_Spec.heads_sum, Attention_Spec.attend, Attention_Spec.soft, Attention_Spec.masked, Attention_Spec.logit, Attention_Proofs.run, Attention_Spec.affine, Attention_Proofs.entry.
        cbn [mask_fn]. rewrite !En. reflexivity.
      Qed.
      Lemma add_rows_pick x y p : length x = length y -> (forall i, In i p -> i < length x) -> add_rows (pick p x) (pick p y) = pick p (add_rows x y).
      Proof using.
        intros HL Hp. unfold Vit_Model.add_rows, at_rows. induction p as [|i p IH]; [reflexivity|]. cbn [map List.combine fst snd]. f_equal; [|apply IH; intros; apply Hp; right; assumption].
        assert (Hi : i < length x) by (apply Hp; left; reflexivity).
        pose proof (map_nth (fun q : list V * list V => zip add (fst q) (snd q)) (List.combine x y) ([], []) i) as E. rewrite combine_nth in E by exact HL. cbn [fst snd] in E.
        rewrite <- E. apply nth_indep. rewrite map_length, combine_length. clear - Hi HL. lia.
      Qed.
      Lemma add_rows_length x y : length x = length y -> length (add_rows x y) = length x.
      Proof using. intros H. unfold Vit_Model.add_rows. rewrite map_length, combine_length. clear - H. lia. Qed.
      Variables dropout dropout' : path -> mat -> mat.
      Definition block_wf (d : nat) (b : block) : Prop := square (attention V b) d /\ width_kept d (norm1 V b).
      Lemma block_pick d b x y key key' p : block_wf d b -> Permutation p (seq 0 (length x)) -> call_block dropout false b x key = Ok y ->
        call_block dropout' false b (pick p x) key' = Ok (pick p y) /\ length y = length x.
      Proof using add_assoc add_0_l add_comm vmax_assoc vmax_comm.
        intros (Hs & Hw) Hp H. pose proof (perm_lt Hp) as Lt. unfold Vit_Model.call_block in *. cbn [psplit seq map drop] in *.
        apply bind_ok in H as (i1 & H1 & H). apply bind_ok in H as (a & H2 & H). apply bind_ok in H as (i2 & H3 & H). apply bind_ok in H as (i3 & H4 & H). apply bind_ok in H as (i4 & H5 & H). injection H as <-.
        assert (L1 := mapM_len _ _ _ H1). assert (R1 : rect (length i1) d i1). { split; [reflexivity|]. intros r Hr. apply (mapM_In _ _ _ _ H1) in Hr as (r0 & _ & Hr). apply (Hw _ _ Hr). }
        assert (L2 : length a = length x) by (rewrite <- L1; apply (self_rect _ _ _ _ Hs R1 H2)).
        rewrite (mapM_at _ [] [] _ _ _ H1 Lt). cbn [bind]. rewrite <- L1 in Hp. rewrite (self_pick _ _ _ _ _ Hs R1 Hp H2). cbn [bind].
        rewrite add_rows_pick by (try exact Lt; symmetry; exact L2). assert (L3 : length (add_rows x a) = length x) by (apply add_rows_length; symmetry; exact L2).
        rewrite (mapM_at _ [] [] _ _ _ H3) by (rewrite L3; exact Lt). cbn [bind]. unfold through in *. assert (L4 := mapM_len _ _ _ H3). assert (L5 := mapM_len _ _ _ H4). assert (L6 := mapM_len _ _ _ H5).
        rewrite (mapM_at _ [] [] _ _ _ H4) by (rewrite L4, L3; exact Lt). cbn [bind].
        assert (Eg : map (map gelu) (pick p i3) = pick p (map (map gelu) i3)). { unfold at_rows. rewrite map_map. apply map_ext. intros i. symmetry. apply (map_nth (map gelu) i3 []). }
        rewrite Eg. rewrite (mapM_at _ [] [] _ _ _ H5) by (rewrite map_length, L5, L4, L3; exact Lt). cbn [bind]. rewrite map_length in L6.
        assert (L7 : length (add_rows x a) = length i4) by (rewrite L6, L5, L4; reflexivity).
        rewrite add_rows_pick by (try exact L7; rewrite L3; exact Lt). split; [reflexivity|]. rewrite add_rows_length by exact L7. exact L3.
      Qed.
      Lemma blocks_pick d p : forall bs keys keys' x y, Forall (block_wf d) bs -> Permutation p (seq 0 (length x)) -> length keys = length keys' -> call_blocks dropout false bs keys x = Ok y ->
        call_blocks dropout' false bs keys' (pick p x) = Ok (pick p y) /\ length y = length x.
      Proof using add_assoc add_0_l add_comm vmax_assoc vmax_comm.
        induction bs as [|b bs IH]; intros [|k ks] [|k' ks'] x y HF Hp HL H; try discriminate; cbn [Vit_Model.call_blocks] in *; try (injection H as <-; auto; fail).
        inversion HF; subst. apply bind_ok in H as (z & H1 & H). destruct (block_pick d b x z k k' p H2 Hp H1) as [E L]. rewrite E. cbn [bind]. rewrite <- L in *.
        apply (IH ks ks'); auto.
      Qed.

      (** Two images whose patches are the same, in another order: with the rows of the positional embedding in that order too, the answer is the same. *)
      Theorem C127_permutation : forall d v img img' ps p key key' y,
        Forall (block_wf d) (blocks V v) -> rearrange (patch_size V v) img = Ok ps -> Permutation p (seq 0 (length ps)) -> rearrange (patch_size V v) img' = Ok (pick p ps) ->
        length ps < length (positional V v) ->
        call dropout v false img key = Ok y ->
        call dropout' {| patch_size := patch_size V v; embedding := embedding V v; positional := nth 0 (positional V v) [] :: map (fun i => nth (S i) (positional V v) []) p;
                         cls_token := cls_token V v; blocks := blocks V v; num_layers := num_layers V v; norm := norm V v; classes := classes V v |} false img' key' = Ok y.
      Proof using add_assoc add_0_l add_comm vmax_assoc vmax_comm.
        intros d v img img' ps p key key' y HF Hr Hp Hr' Hpos H. pose proof (perm_lt Hp) as Lt. assert (Lp : length p = length ps) by (rewrite (Permutation_length Hp), seq_length; reflexivity).
        unfold call_vit in *. cbn [patch_size embedding positional cls_token blocks num_layers norm classes]. rewrite Hr in H. rewrite Hr'. cbn [bind] in *.
        apply bind_ok in H as (x & Hx & H). unfold through in *. assert (Lx := mapM_len _ _ _ Hx). rewrite (mapM_at _ [] [] _ _ _ Hx Lt). cbn [bind]. unfold add_positional in *.
        assert (E1 : length (firstn (length (cls_token V v :: x)) (positional V v)) = length (cls_token V v :: x)) by (rewrite firstn_length; cbn [length]; clear - Lx Hpos; lia).
        rewrite E1, Nat.eqb_refl in H. cbn [bind] in H. set (P := 0 :: map S p). assert (Lx' : length (pick p x) = length p) by (unfold at_rows; rewrite map_length; reflexivity).
        assert (E2 : firstn (length (cls_token V v :: pick p x)) (nth 0 (positional V v) [] :: map (fun i => nth (S i) (positional V v) []) p) = pick P (firstn (length (cls_token V v :: x)) (positional V v))).
        { rewrite firstn_all2 by (cbn [length]; rewrite map_length, Lx'; apply le_n). unfold P, at_rows. cbn [map]. rewrite map_map.
          assert (N : forall i n (l : mat), i < n -> nth i (firstn n l) [] = nth i l []).
          { clear. induction i as [|i IH]; intros [|n] [|r l] Hi; try (exfalso; lia); try reflexivity. cbn [firstn nth]. apply IH. lia. }
          f_equal; [symmetry; apply N; cbn [length]; clear; lia|]. apply map_ext_in. intros i Hi. symmetry. apply N. cbn [length]. apply Lt in Hi. clear - Hi Lx. lia. }
        rewrite E2. assert (LP : length (pick P (firstn (length (cls_token V v :: x)) (positional V v))) = length (cls_token V v :: pick p x)).
        { unfold at_rows at 1. unfold P. cbn [length map]. rewrite !map_length, Lx'. reflexivity. }
        rewrite LP, Nat.eqb_refl. cbn [bind]. assert (E3 : cls_token V v :: pick p x = pick P (cls_token V v :: x)) by (unfold P, at_rows; cbn [map nth]; rewrite map_map; reflexivity).
        assert (HP : Permutation P (seq 0 (length (cls_token V v :: x)))).
        { unfold P. cbn [length seq]. apply perm_skip. rewrite <- seq_shift, Lx. apply Permutation_map. exact Hp. }
        rewrite E3, add_rows_pick by (try (symmetry; exact E1); exact (perm_lt HP)). rewrite psplit_S in *. cbn [drop] in *. apply bind_ok in H as (z & Hz & H).
        set (w := add_rows (cls_token V v :: x) (firstn (length (cls_token V v :: x)) (positional V v))) in *.
        assert (Lw : length w = length (cls_token V v :: x)) by (apply add_rows_length; symmetry; exact E1). rewrite <- Lw in HP.
        assert (Lk : length (map (fun i => key ++ [S i]) (seq 0 (num_layers V v))) = length (map (fun i => key' ++ [S i]) (seq 0 (num_layers V v)))) by (rewrite !map_length; reflexivity).
        destruct (blocks_pick d P (blocks V v) _ _ w z HF HP Lk Hz) as [E Lz].
        rewrite E. cbn [bind]. destruct z as [|first z]; [discriminate|]. unfold P. unfold at_rows. cbn [map nth]. exact H.
      Qed.
    End Permutation.
    (** *** A transformer as made *)
    Section Made.
      Variable init_w : path -> nat -> nat -> list (list V).
      Variable init_b : path -> nat -> nat -> list V.
      Variable normal : path -> nat -> nat -> mat.
      Variable layer_norm : nat -> list V -> res (list V).
      Notation make := (make_vit V init_w init_b normal layer_norm).
      Notation make_block := (make_block V init_w init_b layer_norm).
      (** All the blocks start with the same parameters, drawn from one key; everything else has a key of its own. *)
      Theorem C127_made : forall chans d hidden heads layers p np nc key v, make chans d hidden heads layers p np nc key = Ok v ->
        patch_size V v = p /\ num_layers V v = layers /\ length (blocks V v) = layers /\
        (forall b, In b (blocks V v) -> make_block d hidden heads (key ++ [3]) = Ok b) /\
        positional V v = normal (key ++ [1]) (np + 1) d /\ cls_token V v = nth 0 (normal (key ++ [2]) 1 d) [] /\
        weight V (embedding V v) = init_w (key ++ [0; 0]) d (chans * p * p) /\ bias V (embedding V v) = Some (init_b (key ++ [0; 1]) d (chans * p * p)) /\
        weight V (classes V v) = init_w (key ++ [4; 0]) nc d /\ bias V (classes V v) = Some (init_b (key ++ [4; 1]) nc d) /\ norm V v = layer_norm d.
      Proof using.
        intros chans d hidden heads layers p np nc key v H. unfold make_vit in H. cbn [psplit seq map] in H. apply bind_ok in H as (e & He & H). apply bind_ok in H as (bs & Hb & H).
        apply bind_ok in H as (m & Hm & H). injection H as <-. cbn [patch_size num_layers blocks positional cls_token embedding classes norm].
        unfold make_linear in He, Hm. cbn [psplit seq map] in He, Hm. injection He as <-. injection Hm as <-. cbn [weight bias dim]. rewrite <- !app_assoc. cbn [app].
        assert (E : p * p * chans = chans * p * p) by (rewrite (Nat.mul_comm chans p), <- Nat.mul_assoc, <- Nat.mul_assoc, (Nat.mul_comm chans p); reflexivity). rewrite E.
        split; [reflexivity|]. split; [reflexivity|]. split; [rewrite (mapM_len _ _ _ Hb), seq_length; reflexivity|]. split.
        - intros b Hin. apply (mapM_In _ _ _ _ Hb) in Hin as (i & _ & Hi). exact Hi.
        - do 6 (split; [reflexivity|]). reflexivity.
      Qed.
      (** So that no two blocks are different to begin with, however many there are. *)
      Theorem C127_same_blocks : forall chans d hidden heads layers p np nc key v b b', make chans d hidden heads layers p np nc key = Ok v ->
        In b (blocks V v) -> In b' (blocks V v) -> b = b'.
      Proof using.
        intros chans d hidden heads layers p np nc key v b b' H Hb Hb'. destruct (C127_made _ _ _ _ _ _ _ _ _ _ H) as (_ & _ & _ & E & _).
        apply E in Hb, Hb'. rewrite Hb in Hb'. injection Hb' as <-. reflexivity.
      Qed.

      Hypothesis init_w_ok : forall key n i, rect n i (init_w key n i).
      Hypothesis init_b_ok : forall key n i, length (init_b key n i) = n.
      Hypothesis normal_ok : forall key n i, rect n i (normal key n i).
      Hypothesis layer_norm_ok : forall d r, length r = d -> exists r', layer_norm d r = Ok r' /\ length r' = d.
      Variable dropout : path -> mat -> mat.
      Hypothesis dropout_ok : forall key n m x, rect n m x -> rect n m (dropout key x).
      Lemma drop_ok en key n m x : rect n m x -> rect n m (drop V dropout en key x).
      Proof using dropout_ok. unfold drop. destruct en; auto. Qed.
      Lemma linear_ok i o b key l : make_linear V path psplit init_w init_b (Size i) (Size o) b key = Ok l -> layer_ok V l i o.
      Proof using init_w_ok init_b_ok.
        intros H. unfold make_linear in H. cbn [psplit seq map] in H. injection H as <-. repeat split; cbn [weight bias dim]; try apply init_w_ok. destruct b; [apply init_b_ok|exact I].
      Qed.
      Lemma through_ok l i o n x : layer_ok V l i o -> rect n i x -> exists y, through V zero add mul l x = Ok y /\ rect n o y.
      Proof using.
        intros Hl Hx. rewrite (rect_tab V zero n i x Hx). eexists. split; [apply (through_tab V zero add mul l i o n _ Hl)|apply tab_rect].
      Qed.
      Lemma norm_ok d n x : rect n d x -> exists y, mapM (layer_norm d) x = Ok y /\ rect n d y.
      Proof using layer_norm_ok.
        intros [<- Hx]. induction x as [|r x IH]; [exists []; split; [reflexivity|]; split; [reflexivity|intros ? []]|].
        destruct (layer_norm_ok d r) as (r' & E & L); [apply Hx; left; reflexivity|]. destruct IH as (y & Ey & Ly & Ry); [intros; apply Hx; right; assumption|].
        exists (r' :: y). cbn [mapM]. rewrite E. cbn [bind]. rewrite Ey. split; [reflexivity|]. split; [cbn [length]; rewrite Ly; reflexivity|]. intros q [<-|Hq]; auto.
      Qed.
      Lemma zip_length (a b : list V) : length a = length b -> length (zip add a b) = length a.
      Proof using. revert b. induction a as [|x a IH]; intros [|y b] H; try discriminate; [reflexivity|]. cbn [zip length] in *. rewrite IH; [reflexivity|]. injection H as H. exact H. Qed.
      Lemma add_rows_ok n d x y : rect n d x -> rect n d y -> rect n d (add_rows x y).
      Proof using.
        intros [Lx Rx] [Ly Ry]. split; [unfold Vit_Model.add_rows; rewrite map_length, combine_length, Lx, Ly; apply Nat.min_id|].
        intros r Hr. apply in_map_iff in Hr as ((a & b) & <- & Hab). cbn [fst snd]. pose proof (in_combine_l _ _ _ _ Hab) as Ha. pose proof (in_combine_r _ _ _ _ Hab) as Hb.
        rewrite zip_length by (rewrite (Rx _ Ha), (Ry _ Hb); reflexivity). apply Rx, Ha.
      Qed.
      Lemma block_ok d hidden heads key b en n x k : heads <> 0 -> make_block d hidden heads key = Ok b -> rect n d x -> exists y, call_block dropout en b x k = Ok y /\ rect n d y.
      Proof using add_assoc add_0_l init_w_ok init_b_ok layer_norm_ok dropout_ok.
        intros Hh H Hx. unfold Vit_Model.make_block in H. cbn [psplit seq map] in H. apply bind_ok in H as (a & Ha & H). apply bind_ok in H as (l1 & H1 & H). apply bind_ok in H as (l2 & H2 & H). injection H as <-.
        destruct (C69_made V path psplit init_w init_b _ _ _ _ _ _ _ _ _ _ _ _ _ init_w_ok init_b_ok Ha Hh) as (Hm & _ & Eq & Ek & Ev & Eo & _).
        assert (Hs : square a d) by (split; [exact Hm|]; auto). apply linear_ok in H1, H2. unfold Vit_Model.call_block. cbn [psplit seq map norm1 norm2 attention linear1 linear2].
        destruct (norm_ok d n x Hx) as (i1 & -> & R1). cbn [bind]. destruct R1 as [Li Ri].
        assert (Ha2 : exists a2, mha_call a i1 i1 i1 NoMask None None = Ok a2).
        { pose proof (fun D => C69_formula V path zero add mul sub div vmax exp sqrt fmin psplit (fun _ _ _ => []) (fun _ _ _ => []) (fun _ w => Ok w) add_assoc add_0_l a i1 i1 i1
            NoMask None D Hm ltac:(rewrite Eq; split; [reflexivity | exact Ri]) ltac:(rewrite Ek; split; [reflexivity | exact Ri]) ltac:(rewrite Ev; split; [reflexivity | exact Ri]) I) as F.
          cbv zeta in F. rewrite (F _ (fun i _ => eq_refl)). eauto. }
        destruct Ha2 as (a2 & Ha2). rewrite Ha2. cbn [bind]. assert (R2 : rect n d a2) by (rewrite <- Li; apply (self_rect _ _ _ _ Hs (conj eq_refl Ri) Ha2)).
        pose proof (add_rows_ok n d x a2 Hx R2) as R3. destruct (norm_ok d n _ R3) as (i2 & -> & R4). cbn [bind]. destruct (through_ok _ _ _ _ _ H1 R4) as (i3 & -> & R5). cbn [bind].
        assert (R6 : rect n hidden (map (map gelu) i3)). { destruct R5 as [L5 R5]. split; [rewrite map_length; exact L5|]. intros r Hr. apply in_map_iff in Hr as (r0 & <- & Hr). rewrite map_length. apply R5, Hr. }
        destruct (through_ok _ _ _ _ _ H2 (drop_ok en (k ++ [0]) _ _ _ R6)) as (i4 & -> & R7). cbn [bind]. eexists. split; [reflexivity|]. apply add_rows_ok; [exact R3|]. apply drop_ok, R7.
      Qed.
      Lemma blocks_ok d hidden heads key en n : heads <> 0 -> forall bs keys x, (forall b, In b bs -> make_block d hidden heads key = Ok b) -> rect n d x ->
        exists y, call_blocks dropout en bs keys x = Ok y /\ rect n d y.
      Proof using add_assoc add_0_l init_w_ok init_b_ok layer_norm_ok dropout_ok.
        intros Hh. induction bs as [|b bs IH]; intros [|k keys] x HB Hx; cbn [Vit_Model.call_blocks]; eauto.
        destruct (block_ok d hidden heads key b en n x k Hh (HB b (or_introl eq_refl)) Hx) as (y & -> & Ry). cbn [bind]. apply IH; [intros; apply HB; right; assumption|exact Ry].
      Qed.
      (** When a call succeeds: the image has the channels expected and sizes that are multiples of the patch size, with no more patches than positions;
          or there is only the position of the class token, which then serves for all. *)
      Theorem C127_succeeds : forall chans d hidden heads layers p np nc key v en img k, heads <> 0 -> make chans d hidden heads layers p np nc key = Ok v ->
        0 < p -> 0 < height img -> 0 < width img ->
        ((exists y, call dropout v en img k = Ok y) <->
           channels img = chans /\ height img mod p = 0 /\ width img mod p = 0 /\ (height img / p * (width img / p) <= np \/ np = 0)) /\
        (forall y, call dropout v en img k = Ok y -> length y = nc).
      Proof using add_assoc add_0_l init_w_ok init_b_ok normal_ok layer_norm_ok dropout_ok.
        intros chans d hidden heads layers p np nc key v en img k Hh Hv Hp Hhe Hwi. assert (P0 : p <> 0) by (clear - Hp; lia).
        pose proof (C127_made _ _ _ _ _ _ _ _ _ _ Hv) as (E1 & E2 & E3 & E4 & E5 & E6 & _ & _ & _ & _ & E7).
        unfold make_vit in Hv. cbn [psplit seq map] in Hv. apply bind_ok in Hv as (e & He & Hv). apply bind_ok in Hv as (bs & _ & Hv). apply bind_ok in Hv as (m & Hm & Hv). apply linear_ok in He, Hm.
        assert (Ee : embedding V v = e) by (injection Hv as <-; reflexivity). assert (Em : classes V v = m) by (injection Hv as <-; reflexivity). clear Hv bs.
        assert (Rc : length (cls_token V v) = d). { rewrite E6. destruct (normal_ok (key ++ [2]) 1 d) as [L R]. apply R, nth_In. rewrite L. apply Nat.lt_0_1. }
        destruct (normal_ok (key ++ [1]) (np + 1) d) as [Lp Rp]. rewrite <- E5 in Lp, Rp.
        destruct (C127_patches V p img zero Hp) as (Q1 & Q2 & Q3).
        set (n := height img / p * (width img / p)) in *.
        assert (Y : (exists ps, rearrange p img = Ok ps /\ rect n (channels img * (p * p)) ps /\ height img mod p = 0 /\ width img mod p = 0 /\ 0 < n)
                    \/ (rearrange p img = Err (OtherError 0) /\ ~ (height img mod p = 0 /\ width img mod p = 0))).
        { destruct (rearrange p img) as [ps|er] eqn:Er.
          - left. exists ps. destruct (Q3 ps eq_refl) as (L1 & L2 & _). split; [reflexivity|]. split; [split; [exact L1|exact L2]|].
            assert (Z : height img mod p = 0 /\ width img mod p = 0).
            { destruct (Nat.eq_dec (height img mod p) 0) as [A|A], (Nat.eq_dec (width img mod p) 0) as [B|B]; auto; destruct Q1 as [_ Q1]; discriminate (Q1 ltac:(auto)). }
            destruct Z as [Z1 Z2]. split; [exact Z1|]. split; [exact Z2|]. unfold n. apply Nat.mul_pos_pos; apply Nat.div_str_pos; split; try exact Hp; apply Nat.div_exact in Z1; apply Nat.div_exact in Z2; try exact P0.
            + destruct (height img / p); [rewrite Nat.mul_0_r in Z1; clear - Hhe Z1; lia|]. rewrite Nat.mul_succ_r in Z1. clear - Z1. lia.
            + destruct (width img / p); [rewrite Nat.mul_0_r in Z2; clear - Hwi Z2; lia|]. rewrite Nat.mul_succ_r in Z2. clear - Z2. lia.
          - right. rewrite (Q2 er eq_refl) in *. split; [reflexivity|]. intros [A B]. destruct (proj1 Q1 eq_refl); contradiction. }
        destruct Y as [(ps & Er & Rps & Z1 & Z2 & Hn)|(Er & Z)].
        2:{ split; [split|].
            - intros (y & H). unfold call_vit in H. rewrite E1, Er in H. discriminate.
            - intros (_ & A & B & _). destruct Z; auto.
            - intros y H. unfold call_vit in H. rewrite E1, Er in H. discriminate. }
        destruct (Nat.eq_dec (channels img) chans) as [Ec|Ec].
        2:{ assert (X : through V zero add mul e ps = Err TypeError).
            { destruct Rps as [L R]. destruct ps as [|r ps]; [cbn in L; clear - L Hn; lia|]. eapply through_bad; [exact He|reflexivity|]. rewrite (R r) by (left; reflexivity).
              rewrite (Nat.mul_comm (p * p)). intros X. apply Ec. apply Nat.mul_cancel_r in X; [exact X|]. intros X0. apply Nat.eq_mul_0 in X0. destruct X0; contradiction. }
            split; [split|].
            - intros (y & H). unfold call_vit in H. rewrite E1, Er, Ee in H. cbn [bind] in H. rewrite X in H. discriminate.
            - intros (A & _). contradiction.
            - intros y H. unfold call_vit in H. rewrite E1, Er, Ee in H. cbn [bind] in H. rewrite X in H. discriminate. }
        rewrite Ec, (Nat.mul_comm chans) in Rps. destruct (through_ok _ _ _ _ _ He Rps) as (x & Ex & Rx). pose proof Rx as [Lx Rx'].
        assert (Rx2 : rect (S n) d (cls_token V v :: x)) by (split; [cbn [length]; rewrite Lx; reflexivity|]; intros r [<-|Hr]; auto).
        assert (T : (n <= np \/ np = 0) -> exists w, add_positional V add (positional V v) (cls_token V v :: x) = Ok w /\ rect (S n) d w).
        { intros C. unfold add_positional. destruct Rx2 as [L2 R2]. rewrite L2, firstn_length, Lp. destruct (Nat.eqb_spec (Nat.min (S n) (np + 1)) (S n)) as [A|A].
          - eexists. split; [reflexivity|]. apply add_rows_ok; [split; assumption|]. split; [rewrite firstn_length, Lp; exact A|]. intros r Hr. apply Rp.
            rewrite <- (firstn_skipn (S n) (positional V v)). apply in_app_iff. left. exact Hr.
          - assert (np = 0) by (clear - A C; lia). subst np. destruct (positional V v) as [|r0 [|? ?]] eqn:Epos; try discriminate. cbn [firstn]. rewrite firstn_nil. eexists. split; [reflexivity|].
            split; [rewrite map_length; exact L2|]. intros r Hr. apply in_map_iff in Hr as (q & <- & Hq). rewrite zip_length; [apply R2, Hq|]. rewrite (R2 _ Hq), (Rp r0) by (left; reflexivity). reflexivity. }
        assert (T' : ~ (n <= np \/ np = 0) -> forall w, add_positional V add (positional V v) (cls_token V v :: x) <> Ok w).
        { intros C w. unfold add_positional. destruct Rx2 as [L2 R2]. rewrite L2, firstn_length, Lp. destruct (Nat.eqb_spec (Nat.min (S n) (np + 1)) (S n)) as [A|A]; [clear - A C; lia|].
          destruct (firstn (S n) (positional V v)) as [|r0 [|r1 l]] eqn:Ef; try discriminate. exfalso. assert (X : length (firstn (S n) (positional V v)) = 1) by (rewrite Ef; reflexivity).
          rewrite firstn_length, Lp in X. clear - X C Hn. lia. }
        assert (Run : forall w, rect (S n) d w -> exists y, (match psplit k (num_layers V v + 1) with
            | dropout_key :: attention_keys =>
                y <- call_blocks dropout en (blocks V v) attention_keys (drop V dropout en dropout_key w) ;;
                match y with
                | [] => Err IndexError
                | first :: _ => r <- norm V v first ;; o <- call_linear V zero add mul (classes V v) (Vec V r) ;; match o with Vec _ vs => Ok vs | Sc _ _ => Err ValueError end
                end
            | [] => Err ValueError
            end) = Ok y /\ length y = nc).
        { intros w Rw. rewrite psplit_S. destruct (blocks_ok d hidden heads (key ++ [3]) en (S n) Hh (blocks V v) (map (fun i => k ++ [S i]) (seq 0 (num_layers V v))) _ E4 (drop_ok en (k ++ [0]) _ _ _ Rw)) as (y & Hy & Ly & Ry).
          rewrite Hy. cbn [bind]. destruct y as [|first y]; [discriminate|]. rewrite E7. destruct (layer_norm_ok d first (Ry first (or_introl eq_refl))) as (r & Hr & Lr). rewrite Hr. cbn [bind]. rewrite Em.
          destruct (through_ok m d nc 1 [r] Hm) as (o & Ho & Lo & Ro); [split; [reflexivity|]; intros q [<-|[]]; exact Lr|]. unfold through in Ho. cbn [mapM] in Ho.
          destruct (call_linear V zero add mul m (Vec V r)) as [[sc|vs]|]; cbn [bind] in Ho |- *; try discriminate. injection Ho as <-. exists vs. split; [reflexivity|]. apply Ro. left. reflexivity. }
        unfold call_vit. rewrite E1, Er, Ee. cbn [bind]. rewrite Ex. cbn [bind]. split; [split|].
        - intros (y & H). split; [exact Ec|]. split; [exact Z1|]. split; [exact Z2|]. apply bind_ok in H as (w & Hw & _).
          destruct (le_lt_dec n np) as [C|C]; [left; exact C|]. destruct (Nat.eq_dec np 0) as [C0|C0]; [right; exact C0|]. exfalso. apply (T' ltac:(clear - C C0; lia) w Hw).
        - intros (_ & _ & _ & C). destruct (T C) as (w & Hw & Rw). rewrite Hw. cbn [bind]. destruct (Run w Rw) as (y & Hy & _). exists y. exact Hy.
        - intros y H. apply bind_ok in H as (w & Hw & H). destruct (le_lt_dec n np) as [C|C].
          + destruct (T (or_introl C)) as (w' & Hw' & Rw). rewrite Hw in Hw'. injection Hw' as <-. destruct (Run w Rw) as (y' & Hy' & Ly). rewrite Hy' in H. injection H as <-. exact Ly.
          + destruct (Nat.eq_dec np 0) as [C0|C0]; [|exfalso; apply (T' ltac:(clear - C C0; lia) w Hw)].
            destruct (T (or_intror C0)) as (w' & Hw' & Rw). rewrite Hw in Hw'. injection Hw' as <-. destruct (Run w Rw) as (y' & Hy' & Ly). rewrite Hy' in H. injection H as <-. exact Ly.
      Qed.
    End Made.
  End Numbers.
End Vit.
Print Assumptions C127_permutation.
Print Assumptions C127_call_keys.
Print Assumptions C127_inference.
Print Assumptions C127_made.
Print Assumptions C127_same_blocks.
Print Assumptions C127_succeeds.

(** A small transformer over the integers. *)
Definition ex_sum (k : path) : Z := Z.of_nat (fold_right Nat.add 0 k).
Definition ex_table (k : path) (n i : nat) : list (list Z) := map (fun r => map (fun c => (ex_sum k + 2 * Z.of_nat r - Z.of_nat c * Z.of_nat c)%Z) (seq 0 i)) (seq 0 n).
Definition ex_make := make_vit Z ex_table (fun k n _ => repeat (ex_sum k) n) ex_table (fun _ r => Ok (map (fun z => (z + 1)%Z) r)).
Definition ex_drop (k : path) (x : list (list Z)) : list (list Z) := map (map (fun z => (z * (1 + ex_sum k))%Z)) x.
Definition ex_call := call_vit Z 0%Z Z.add Z.mul Z.sub Z.div Z.max (fun z => Z.max 0 (3 + z)) (fun z => (z * z mod 17)%Z) (fun n => Z.of_nat n) (-1000)%Z.
Definition ex_image : image Z := mk_image 1 2 4 (fun c i j => - Z.of_nat (10 * i + j))%Z.
Definition ex_swapped : image Z := mk_image 1 2 4 (fun c i j => - Z.of_nat (10 * i + (j + 2) mod 4))%Z.
Example C127_ex : exists v, ex_make 1 2 3 1 2 2 2 3 [0] = Ok v /\ length (blocks Z v) = 2 /\
  (exists y, ex_call ex_drop v false ex_image [7] = Ok y /\ length y = 3 /\
     rearrange 2 ex_image = Ok [[0; -1; -10; -11]; [-2; -3; -12; -13]]%Z /\ rearrange 2 ex_swapped = Ok (at_rows [] [1; 0] [[0; -1; -10; -11]; [-2; -3; -12; -13]]%Z) /\
     ex_call ex_drop v false ex_swapped [7] <> Ok y /\ ex_call ex_drop v true ex_image [7] <> Ok y /\
     ex_call ex_drop (mk_vit (patch_size Z v) (embedding Z v) (at_rows [] [0; 2; 1] (positional Z v)) (cls_token Z v) (blocks Z v) (num_layers Z v) (norm Z v) (classes Z v)) false ex_swapped [] = Ok y) /\
  ex_call ex_drop v false (mk_image 1 4 4 (fun _ _ _ => 0%Z)) [7] = Err TypeError.
Proof.
  eexists. split; [vm_compute; reflexivity|]. split; [reflexivity|]. split; [|vm_compute; reflexivity].
  eexists. split; [vm_compute; reflexivity|]. split; [reflexivity|]. split; [vm_compute; reflexivity|]. split; [vm_compute; reflexivity|].
  split; [vm_compute; discriminate|]. split; [vm_compute; discriminate|]. vm_compute. reflexivity.
Qed.
