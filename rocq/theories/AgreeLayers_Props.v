(** C112 (second part): MLPs that are sequences of layers, attention over one position, adaptive pooling over equal blocks.
    Models: Mlp_Model, Sequential_Model, Attention_Model, PoolNd_Model. *)
From Coq Require Import Lia.
From Verif Require Import Mlp_Model.
From Verif Require Sequential_Model.
Local Open Scope nat_scope.
Local Open Scope list_scope.

(** ** MLP and Sequential *)
Section Mlp.
  Context (V Key S : Type) (zero : V) (add mul : V -> V -> V) (split : Key -> nat -> list Key).
  Context (init_w : Key -> nat -> nat -> list (list V)) (init_b : Key -> nat -> nat -> list V).
  Notation layer := (Sequential_Model.layer (arr V) S Key).
  (** A Linear layer and a Lambda of an elementwise function, as members of a Sequential. *)
  Definition linear_layer (l : linear V) : layer := Sequential_Model.Plain _ _ _ (fun x _ => call_linear V zero add mul l x).
  Definition lambda_layer (a : V -> V) : layer :=
    Sequential_Model.Plain _ _ _ (fun x _ => Ok (match x with Sc _ v => Sc V (a v) | Vec _ vs => Vec V (map a vs) end)).
  Fixpoint interleave (a f : V -> V) (ls : list (linear V)) : list layer :=
    match ls with
    | [] => []
    | [l] => [linear_layer l; lambda_layer f]
    | l :: ls => linear_layer l :: lambda_layer a :: interleave a f ls
    end.

  Lemma zip_const (a : V -> V) : forall vs i, zip (fun (_ : nat) v => a v) (seq i (length vs)) vs = map a vs.
  Proof. induction vs as [|v vs IH]; intros i; [reflexivity|]. cbn [length seq zip map]. rewrite IH. reflexivity. Qed.
  Lemma linear_out l x y : call_linear V zero add mul l x = Ok y ->
    match out_features V l with Scalar => exists v, y = Sc V v | Size _ => exists vs, y = Vec V vs end.
  Proof.
    unfold call_linear. intros H. apply bind_ok in H as (x' & _ & H). apply bind_ok in H as (y' & _ & H).
    destruct (out_features V l) as [|n].
    - destruct (match bias V l with Some b => zip add y' b | None => y' end) as [|v [|? ?]]; try discriminate. injection H as <-. eauto.
    - injection H as <-. eauto.
  Qed.
  (** The sizes the constructor gives: all layers but the last end in vectors, the last in the size asked for. *)
  Fixpoint ends (o : size) (ls : list (linear V)) : Prop :=
    match ls with
    | [] => False
    | [l] => out_features V l = o
    | l :: ls => out_features V l <> Scalar /\ ends o ls
    end.

  Lemma loop_interleave (m : mlp V) a f : (forall i j v, act V m i j v = a v) -> (forall j v, final V m j v = f v) ->
    forall ls i x ks s, ends (out_size V m) ls -> length (interleave a f ls) <= length ks ->
    Sequential_Model.loop (arr V) S Key (Sequential_Model.call (arr V) S Key split) (interleave a f ls) ks x s
    = rmap (fun y => (y, s)) (loop V zero add mul m i ls x).
  Proof.
    intros Ha Hf. induction ls as [|l ls IH]; intros i x ks s HE HL; [destruct HE|].
    assert (HZ : forall (g h : V -> V) g' vs, (forall (j : nat) v, g' j v = g v) -> Vec V (zip (fun j v => g' j v) (seq 0 (length vs)) vs) = Vec V (map g vs)).
    { intros g h g' vs E. f_equal. rewrite <- (zip_const g vs 0). generalize 0. clear - E. induction vs as [|v vs IH]; intros i; [reflexivity|]. cbn [length seq zip]. rewrite IH, E. reflexivity. }
    destruct ls as [|l' ls].
    - cbn [interleave] in *. destruct ks as [|k1 [|k2 ks]]; cbn [length] in HL; try lia. cbn [ends] in HE.
      cbn [Sequential_Model.loop Sequential_Model.is_stateful linear_layer lambda_layer Sequential_Model.call loop].
      destruct (call_linear V zero add mul l x) as [y|e] eqn:EC; [|reflexivity]. cbn [bind]. pose proof (linear_out l x y EC) as HO. rewrite HE in HO.
      destruct (out_size V m) as [|n]; destruct HO as [v ->]; cbn [neurons rmap bind].
      + rewrite Hf. reflexivity.
      + rewrite (HZ f f _ v Hf). reflexivity.
    - destruct HE as [HE HE']. change (interleave a f (l :: l' :: ls)) with (linear_layer l :: lambda_layer a :: interleave a f (l' :: ls)) in *.
      destruct ks as [|k1 [|k2 ks]]; cbn [length] in HL; try lia.
      cbn [Sequential_Model.loop Sequential_Model.is_stateful linear_layer lambda_layer Sequential_Model.call].
      change (loop V zero add mul m i (l :: l' :: ls) x) with (bind (call_linear V zero add mul l x) (fun y => bind (neurons V (act V m i) y) (fun z => loop V zero add mul m (i + 1) (l' :: ls) z))).
      destruct (call_linear V zero add mul l x) as [y|e] eqn:EC; [|reflexivity]. cbn [bind]. pose proof (linear_out l x y EC) as HO.
      destruct (out_features V l) as [|n]; [congruence|]. destruct HO as [v ->]. cbn [neurons bind]. rewrite (HZ a a _ v (Ha i)).
      apply IH; [exact HE'|lia].
  Qed.

  (** An MLP with elementwise activations is the Sequential of its linear layers and activations: the same values, the same
      errors, for any key. *)
  Theorem C112_mlp_sequential : forall i o w d a f ub uf key m, make_mlp V Key split init_w init_b i o w d (fun _ _ => a) (fun _ => f) ub uf key = Ok m ->
    (forall k n, length (split k n) = n) -> forall x call_key,
    Sequential_Model.call (arr V) S Key split (Sequential_Model.Seq _ _ _ (interleave a f (layers V m))) x None call_key
    = rmap (Sequential_Model.Bare (arr V) S) (call_mlp V zero add mul m x) /\ length (layers V m) = Datatypes.S d.
  Proof.
    intros i o w d a f ub uf key m HM HS x ck.
    assert (HL : forall i o b k l, make_linear V Key split init_w init_b i o b k = Ok l -> out_features V l = o).
    { intros i' o' b k l. unfold make_linear. destruct (split k 2) as [|? [|? [|? ?]]]; try discriminate. intros H. injection H as <-. reflexivity. }
    unfold make_mlp in HM. apply bind_ok in HM as (ls & Hls & HM).
    assert (HE : ends o ls /\ length ls = Datatypes.S d).
    { destruct (Nat.eqb_spec d 0) as [->|Hd].
      - apply bind_ok in Hls as (k & _ & Hls). apply bind_ok in Hls as (l & Hl & Hls). injection Hls as <-. split; [exact (HL _ _ _ _ _ Hl)|reflexivity].
      - apply bind_ok in Hls as (k & _ & Hls). apply bind_ok in Hls as (l & Hl & Hls). apply bind_ok in Hls as (mid & Hmid & Hls). apply bind_ok in Hls as (k1 & _ & Hls).
        apply bind_ok in Hls as (l1 & Hl1 & Hls). injection Hls as <-. apply HL in Hl, Hl1.
        assert (HA : forall js ms, mapM (fun j => bind (get (split key (d + 1)) (j + 1)) (fun k => make_linear V Key split init_w init_b (Size w) (Size w) ub k)) js = Ok ms ->
          ends o (ms ++ [l1]) /\ length ms = length js).
        { clear Hmid. induction js as [|j js IH]; intros ms Hms; cbn [mapM] in Hms.
          - injection Hms as <-. split; [exact Hl1|reflexivity].
          - apply bind_ok in Hms as (l0 & Hl0 & Hms). apply bind_ok in Hl0 as (k0 & _ & Hl0). apply HL in Hl0. apply bind_ok in Hms as (ms' & Hms' & Hms). injection Hms as <-.
            apply IH in Hms' as [E1 E2]. split; [|cbn [length]; rewrite E2; reflexivity].
            cbn [app ends]. destruct (ms' ++ [l1]) eqn:EM; [destruct ms'; discriminate|]. split; [rewrite Hl0; discriminate|exact E1]. }
        apply HA in Hmid as [E1 E2]. rewrite seq_length in E2. split.
        + cbn [app ends]. destruct (mid ++ [l1]) eqn:EM; [destruct mid; discriminate|]. split; [rewrite Hl; discriminate|exact E1].
        + cbn [app length]. rewrite app_length, E2. cbn [length]. lia. }
    destruct HE as [HE HE2]. injection HM as <-. cbn [layers]. split; [|exact HE2]. cbn [Sequential_Model.call]. unfold call_mlp. cbn [layers].
    set (m := Build_mlp _ _ _ _ _ _ _ _ _ _).
    rewrite (loop_interleave m a f (fun _ _ _ => eq_refl) (fun _ _ => eq_refl) ls 0 x); [|exact HE|].
    - destruct (loop V zero add mul m 0 ls x); reflexivity.
    - unfold Sequential_Model.keys_for. destruct ck; [rewrite map_length, HS|rewrite repeat_length]; lia.
  Qed.

  (** Without hidden layers an MLP is a linear layer followed by the final activation. *)
  Theorem C112_mlp_depth_zero : forall i o w a f ub uf key m, make_mlp V Key split init_w init_b i o w 0 a (fun _ => f) ub uf key = Ok m ->
    exists l, layers V m = [l] /\ in_features V l = i /\ out_features V l = o /\ (bias V l <> None <-> uf = true) /\
      forall x, call_mlp V zero add mul m x = rmap (fun y => match y with Sc _ v => Sc V (f v) | Vec _ vs => Vec V (map f vs) end) (call_linear V zero add mul l x).
  Proof.
    intros i o w a f ub uf key m HM. unfold make_mlp in HM. cbn [Nat.eqb] in HM. apply bind_ok in HM as (ls & Hls & HM).
    apply bind_ok in Hls as (k & _ & Hls). apply bind_ok in Hls as (l & Hl & Hls). injection Hls as <-. injection HM as <-. exists l. cbn [layers]. split; [reflexivity|].
    unfold make_linear in Hl. destruct (split k 2) as [|? [|? [|? ?]]]; try discriminate. injection Hl as <-. cbn [in_features out_features bias].
    split; [reflexivity|]. split; [reflexivity|]. split; [destruct uf; split; congruence|]. intros x. unfold call_mlp. cbn [layers loop].
    set (l := Build_linear _ _ _ _ _ _). destruct (call_linear V zero add mul l x) as [y|e] eqn:EC; [|reflexivity]. cbn [bind rmap out_size].
    pose proof (linear_out l x y EC) as HO. change (out_features V l) with o in HO. destruct o; destruct HO as [v ->]; [reflexivity|]. cbn [neurons final]. do 2 f_equal. apply zip_const.
  Qed.
End Mlp.
Print Assumptions C112_mlp_sequential.
Print Assumptions C112_mlp_depth_zero.

(** ** Attention over one position *)
From Verif Require Import Attention_Model Attention_Spec Attention_Proofs Attention_Props.
Local Open Scope nat_scope.
Section OnePosition.
  Context (V Key : Type) (zero one : V) (add mul sub div vmax : V -> V -> V) (exp : V -> V) (sqrt : nat -> V) (fmin : V).
  Context (split : Key -> nat -> list Key) (dropout : option Key -> list (list V) -> res (list (list V))).
  Hypothesis add_assoc : forall a b c, add a (add b c) = add (add a b) c.
  Hypothesis add_0_l : forall a, add zero a = a.
  Hypothesis add_0_r : forall a, add a zero = a.
  Hypothesis mul_1_l : forall a, mul one a = a.
  Hypothesis div_exp : forall a, div (exp a) (exp a) = one.
  Hypothesis no_dropout : forall k x, dropout k x = Ok x.
  Notation call := (call_mha V Key zero add mul sub div vmax exp sqrt fmin split dropout).
  Notation linear_of l row := (call_linear V zero add mul l (Vec V row)).

  Lemma through_one l row u : through V zero add mul l [row] = Ok [u] -> linear_of l row = Ok (Vec V u).
  Proof using. clear.
    unfold through. cbn [mapM]. destruct (call_linear V zero add mul l (Vec V row)) as [[v|vs]|e]; cbn [bind]; try discriminate. intros H. injection H as <-. reflexivity.
  Qed.
  (** Whatever the queries, the key and the mask: every query gets the output projection of the value projection. *)
  Theorem C112_one_position : forall m query krow vrow mask key, mha_ok V m ->
    rect V (length query) (query_size V m) query -> length krow = key_size V m -> length vrow = value_size V m ->
    mask_ok mask (num_heads V m) (length query) 1 ->
    exists u y, linear_of (value_proj V m) vrow = Ok (Vec V u) /\ linear_of (output_proj V m) u = Ok (Vec V y) /\
      call m query [krow] [vrow] mask key None = Ok (repeat y (length query)).
  Proof using add_assoc add_0_l add_0_r mul_1_l div_exp no_dropout.
    intros m query krow vrow mask key Hm Rq Hk Hv HM.
    assert (Rk : rect V 1 (key_size V m) [krow]) by (split; [reflexivity|intros r [<-|[]]; exact Hk]).
    assert (Rv : rect V 1 (value_size V m) [vrow]) by (split; [reflexivity|intros r [<-|[]]; exact Hv]).
    pose proof (C69_formula V Key zero add mul sub div vmax exp sqrt fmin split (fun _ _ _ => []) (fun _ _ _ => []) dropout add_assoc add_0_l m query [krow] [vrow] mask key) as HF.
    cbn [length] in HF. specialize (HF (fun i => soft V zero add sub div vmax exp 1 (masked V fmin (mask_fn mask i) (logit V zero add mul div sqrt (qk_size V m)
      (fun s j => run V zero add mul (query_proj V m) (query_size V m) (entry V zero query) s (i * qk_size V m + j))
      (fun s j => run V zero add mul (key_proj V m) (key_size V m) (entry V zero [krow]) s (i * qk_size V m + j)))))).
    specialize (HF Hm Rq Rk Rv HM). cbn zeta in HF. specialize (HF (fun i _ => no_dropout _ _)).
    pose proof Hm as (Hh & _ & _ & Lv & Lo).
    set (U := run V zero add mul (value_proj V m) (value_size V m) (entry V zero [vrow])) in *.
    set (Y := run V zero add mul (output_proj V m) (num_heads V m * vo_size V m) U).
    exists (map (U 0) (seq 0 (num_heads V m * vo_size V m))), (map (Y 0) (seq 0 (output_size V m))).
    split; [|split].
    - apply through_one. rewrite (rect_tab V zero _ _ _ Rv). apply (through_tab V zero add mul _ _ _ 1 _ Lv).
    - apply through_one. exact (through_tab V zero add mul _ _ _ 1 U Lo).
    - rewrite HF. f_equal. unfold tab.
      assert (HR : forall (y : list V) n a, repeat y n = map (fun _ => y) (seq a n)) by (clear; intros y n; induction n as [|n IH]; intros a; [reflexivity|]; cbn [repeat seq map]; rewrite (IH (Datatypes.S a)); reflexivity).
      rewrite (HR _ _ 0). apply map_ext. intros s. apply map_ext. intros o.
      assert (HA : forall i j, attend V zero add mul 1 (soft V zero add sub div vmax exp 1 (masked V fmin (mask_fn mask i) (logit V zero add mul div sqrt (qk_size V m)
          (fun s j => run V zero add mul (query_proj V m) (query_size V m) (entry V zero query) s (i * qk_size V m + j))
          (fun s j => run V zero add mul (key_proj V m) (key_size V m) (entry V zero [krow]) s (i * qk_size V m + j)))))
          (fun s j => U s (i * vo_size V m + j)) s j = U 0 (i * vo_size V m + j)).
      { intros i j. unfold attend, soft, bigsum. cbn [seq map fold_right]. rewrite !add_0_r, div_exp, mul_1_l. reflexivity. }
      unfold Y. symmetry.
      transitivity (run V zero add mul (output_proj V m) (num_heads V m * vo_size V m) (fun s c => U 0 (c / vo_size V m * vo_size V m + c mod vo_size V m)) 0 o).
      + unfold run, affine. assert (EB : forall n f g, (forall k, k < n -> f k = g k) -> bigsum V zero add n f = bigsum V zero add n g) by (intros; apply bigsum_ext; assumption).
        rewrite (EB _ _ (fun k => mul (entry V zero (weight V (output_proj V m)) o k) (U 0 (k / vo_size V m * vo_size V m + k mod vo_size V m)))); [reflexivity|].
        intros k Hk'. do 2 f_equal. assert (vo_size V m <> 0) by (intros E; rewrite E, Nat.mul_0_r in Hk'; lia). rewrite (Nat.mul_comm (k / vo_size V m)). apply Nat.div_mod. assumption.
      + rewrite (proj2 (run_heads V zero add mul add_assoc add_0_l (output_proj V m) (num_heads V m) (vo_size V m) 1 (fun i s j => U 0 (i * vo_size V m + j)) 0 o ltac:(lia))).
        unfold heads_sum. assert (ES : bigsum V zero add (num_heads V m) (fun i => bigsum V zero add (vo_size V m) (fun j => mul (entry V zero (weight V (output_proj V m)) o (i * vo_size V m + j)) (U 0 (i * vo_size V m + j))))
          = bigsum V zero add (num_heads V m) (fun i => bigsum V zero add (vo_size V m) (fun j => mul (entry V zero (weight V (output_proj V m)) o (i * vo_size V m + j))
             (attend V zero add mul 1 (soft V zero add sub div vmax exp 1 (masked V fmin (mask_fn mask i) (logit V zero add mul div sqrt (qk_size V m)
          (fun s j => run V zero add mul (query_proj V m) (query_size V m) (entry V zero query) s (i * qk_size V m + j))
          (fun s j => run V zero add mul (key_proj V m) (key_size V m) (entry V zero [krow]) s (i * qk_size V m + j)))))
          (fun s j => U s (i * vo_size V m + j)) s j)))).
        { apply bigsum_ext. intros i _. apply bigsum_ext. intros j _. rewrite HA. reflexivity. }
        rewrite ES. reflexivity.
  Qed.
End OnePosition.
Print Assumptions C112_one_position.

(** ** Examples *)
Definition ex_split (k : nat) (n : nat) : list nat := map (fun i => (2 * k + 1) * n + i) (seq 0 n).
Definition ex_init_w (k o i : nat) : list (list Z) := map (fun a => map (fun b => (Z.of_nat (k + 2 * a + b) - 5)%Z) (seq 0 i)) (seq 0 o).
Definition ex_init_b (k o i : nat) : list Z := map (fun a => Z.of_nat (k + a)) (seq 0 o).
Definition relu (v : Z) : Z := Z.max 0 v.
Example C112_ex_mlp : exists m, make_mlp Z nat ex_split ex_init_w ex_init_b (Size 2) Scalar 3 2 (fun _ _ => relu) (fun _ => Z.opp) true true 0 = Ok m /\
  length (interleave Z nat unit 0%Z Z.add Z.mul relu Z.opp (layers Z m)) = 6 /\
  (exists v, call_mlp Z 0%Z Z.add Z.mul m (Vec Z [1; 2]%Z) = Ok (Sc Z v) /\ (v <> 0)%Z /\
    Sequential_Model.call (arr Z) unit nat ex_split (Sequential_Model.Seq _ _ _ (interleave Z nat unit 0%Z Z.add Z.mul relu Z.opp (layers Z m))) (Vec Z [1; 2]%Z) None (Some 7) = Ok (Sequential_Model.Bare (arr Z) unit (Sc Z v))) /\
  call_mlp Z 0%Z Z.add Z.mul m (Vec Z [1]%Z) = Err TypeError.
Proof.
  eexists. split; [vm_compute; reflexivity|]. split; [reflexivity|]. split; [|vm_compute; reflexivity].
  eexists. split; [vm_compute; reflexivity|]. split; [discriminate|vm_compute; reflexivity].
Qed.
Definition ex_exp (_ : Z) : Z := 1%Z.
Example C112_ex_one_position : exists m, make_mha Z nat ex_split ex_init_w ex_init_b 2 4 None None (Some 3) None None true false true true 1 = Ok m /\ mha_ok Z m /\
  exists y, length y = 3 /\
    call_mha Z nat 0%Z Z.add Z.mul Z.sub Z.div Z.max ex_exp (fun _ => 1%Z) (-100)%Z ex_split (fun _ x => Ok x) m [[1; 2; 3; 4]; [0; 5; 0; -7]]%Z [[1; 1; 2; 2]]%Z [[3; 1; 4; 1]]%Z (Mask2 2 1 (fun s _ => Nat.eqb s 0)) None None
    = Ok [y; y].
Proof.
  eexists. split; [vm_compute; reflexivity|]. split.
  - split; [discriminate|]. repeat split; try reflexivity; intros r Hr; cbn in Hr; repeat (destruct Hr as [<-|Hr]; [reflexivity|]); destruct Hr.
  - eexists. split; [|vm_compute; reflexivity]. reflexivity.
Qed.
