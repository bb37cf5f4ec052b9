(** C53: MLP. *)
From Verif Require Import Mlp_Model.
Local Open Scope nat_scope.
Local Open Scope list_scope.

(** *** Specification *)
(** Sizes between the layers. *)
Definition size_at (i o : size) (w d k : nat) : size := if Nat.eqb k 0 then i else if Nat.eqb k (d + 1) then o else Size w.
Section Spec.
  Variables (V Key : Type) (zero : V) (add mul : V -> V -> V).
  Variable split : Key -> nat -> list Key.
  Variable init_w : Key -> nat -> nat -> list (list V).
  Variable init_b : Key -> nat -> nat -> list V.
  (** Keys and arrays have the sizes asked for. *)
  Definition sizes_ok : Prop := (forall k n, length (split k n) = n) /\
    (forall k o i, length (init_w k o i) = o /\ forall row, In row (init_w k o i) -> length row = i) /\ (forall k o i, length (init_b k o i) = o).
  Definition fits (s : size) (x : arr V) : Prop := match s, x with Scalar, Sc _ _ => True | Size n, Vec _ vs => length vs = n | _, _ => False end.
  Definition entries (x : arr V) : list V := match x with Sc _ v => [v] | Vec _ vs => vs end.
  (** How an input of the wrong shape is refused: a size is a type error, a rank a value error. *)
  Definition refusal (s : size) (x : arr V) : exn := match s, x with Size _, Vec _ _ => TypeError | _, _ => ValueError end.
  (** Entry [j] of an affine map. *)
  Definition affine (l : linear V) (x : list V) (j : nat) : V :=
    let s := dot V zero add mul (nth j (weight V l) []) x in match bias V l with Some b => add s (nth j b zero) | None => s end.
  Definition well (l : linear V) : Prop :=
    length (weight V l) = dim (out_features V l) /\ (forall row, In row (weight V l) -> length row = dim (in_features V l)) /\
    match bias V l with Some b => use_bias V l = true /\ length b = dim (out_features V l) | None => use_bias V l = false end.
  (** What the layers from [k] on do, neuron by neuron. *)
  Inductive computes (m : mlp V) : nat -> list V -> list V -> Prop :=
  | CO_last x y l : nth_error (layers V m) (depth V m) = Some l -> length y = dim (out_size V m) ->
      (forall j, j < length y -> nth j y zero = final V m j (affine l x j)) -> computes m (depth V m) x y
  | CO_hidden k x z y l : k < depth V m -> nth_error (layers V m) k = Some l -> length z = width V m ->
      (forall j, j < length z -> nth j z zero = act V m k j (affine l x j)) -> computes m (S k) z y -> computes m k x y.
End Spec.

Lemma get_ok {X} (l : list X) i : i < length l -> exists x, get l i = Ok x /\ nth_error l i = Some x.
Proof. intros H. unfold get. destruct (nth_error l i) eqn:E; [eauto|]. apply nth_error_None in E. lia. Qed.

Section Proofs.
  Variables (V Key : Type) (zero : V) (add mul : V -> V -> V).
  Variable split : Key -> nat -> list Key.
  Variable init_w : Key -> nat -> nat -> list (list V).
  Variable init_b : Key -> nat -> nat -> list V.
  Hypothesis HS : sizes_ok V Key split init_w init_b.
  Local Notation make_linear := (make_linear V Key split init_w init_b).
  Local Notation make_mlp := (make_mlp V Key split init_w init_b).
  Local Notation call_linear := (call_linear V zero add mul).
  Local Notation affine := (affine V zero add mul).

  Lemma split2 k : exists a b, split k 2 = [a; b].
  Proof. pose proof (proj1 HS k 2) as H. destruct (split k 2) as [|a [|b [|c r]]]; try discriminate. eauto. Qed.
  Lemma make_linear_ok i o b key : exists l, make_linear i o b key = Ok l /\ in_features V l = i /\ out_features V l = o /\ use_bias V l = b /\ well V l.
  Proof.
    unfold Mlp_Model.make_linear. destruct (split2 key) as (wk & bk & ->). eexists. split; [reflexivity|]. cbn. do 3 (split; [auto|]). destruct HS as (_ & HW & HB). unfold well. cbn. split; [apply HW|]. split; [apply HW|]. destruct b; auto.
  Qed.
  Lemma zip_length {X Y Z} (f : X -> Y -> Z) a : forall b, length (zip f a b) = min (length a) (length b).
  Proof. induction a as [|x a IH]; intros [|y b]; cbn; auto. Qed.
  Lemma zip_nth {X Y Z} (f : X -> Y -> Z) a : forall b i dx dy dz, i < length a -> i < length b -> nth i (zip f a b) dz = f (nth i a dx) (nth i b dy).
  Proof. induction a as [|x a IH]; intros [|y b] i dx dy dz Ha Hb; cbn in Ha, Hb; try lia. destruct i; cbn; [auto|]. apply IH; lia. Qed.
  Lemma call_linear_ok l x : well V l -> fits V (in_features V l) x -> exists y, call_linear l x = Ok y /\ fits V (out_features V l) y /\ length (entries V y) = dim (out_features V l) /\
    forall j, j < dim (out_features V l) -> nth j (entries V y) zero = affine l (entries V x) j.
  Proof.
    intros (HW & HR & HB) HX. unfold Mlp_Model.call_linear. assert (H1 : exists vs, match in_features V l with Scalar => match x with Sc _ v => Ok (Vec V [v]) | Vec _ _ => Err ValueError end | Size _ => Ok x end = Ok (Vec V vs) /\ length vs = dim (in_features V l) /\ entries V x = vs).
    { unfold fits in HX. destruct (in_features V l), x; try contradiction; eexists; split; try reflexivity; auto. }
    destruct H1 as (vs & -> & HL & HE). cbn [bind matvec]. rewrite HL, Nat.eqb_refl. cbn [bind]. set (y := map _ _).
    set (y' := match bias V l with Some b => zip add y b | None => y end). assert (LY : length y' = dim (out_features V l)).
    { unfold y'. assert (length y = dim (out_features V l)) by (unfold y; rewrite map_length; auto). destruct (bias V l); [|auto]. rewrite zip_length. lia. }
    assert (NY : forall j, j < dim (out_features V l) -> nth j y' zero = affine l vs j).
    { intros j Hj. assert (Ny : nth j y zero = dot V zero add mul (nth j (weight V l) []) vs).
      { unfold y. rewrite (nth_indep _ zero (dot V zero add mul [] vs)) by (rewrite map_length; lia). apply (map_nth (fun row => dot V zero add mul row vs)). }
      unfold y', Mlp_Props.affine. destruct (bias V l); [|auto]. rewrite (zip_nth _ _ _ j zero zero); [rewrite Ny; auto|unfold y; rewrite map_length; lia|lia]. }
    clearbody y'. destruct (out_features V l); cbn [dim] in *.
    - destruct y' as [|v [|? ?]]; try discriminate. exists (Sc V v). rewrite HE. repeat split; auto.
    - exists (Vec V y'). rewrite HE. repeat split; auto.
  Qed.

  (** *** The layers *)
  Lemma mapM_ok {X Y} (f : X -> res Y) l : (forall x, In x l -> exists y, f x = Ok y) -> exists ys, mapM f l = Ok ys /\ length ys = length l /\ forall n x, nth_error l n = Some x -> exists y, nth_error ys n = Some y /\ f x = Ok y.
  Proof.
    induction l as [|a l IH]; intros H; [exists []; split; [auto|]; split; [auto|]; intros [|n] x E; discriminate|]. destruct (H a (or_introl eq_refl)) as [b Hb]. destruct IH as (ys & E & L & N); [intros; apply H; right; auto|].
    exists (b :: ys). cbn. rewrite Hb. cbn. rewrite E. split; [auto|]. split; [cbn; auto|]. intros [|n] x Hn; cbn in *; [injection Hn as <-; eauto|auto].
  Qed.
  Lemma make_mlp_ok i o w d a f ub uf key : exists m, make_mlp i o w d a f ub uf key = Ok m /\
    depth V m = d /\ width V m = w /\ act V m = a /\ final V m = f /\ in_size V m = i /\ out_size V m = o /\
    length (layers V m) = d + 1 /\
    forall k, k < d + 1 -> exists l key', nth_error (layers V m) k = Some l /\ nth_error (split key (d + 1)) k = Some key' /\
      make_linear (size_at i o w d k) (size_at i o w d (k + 1)) (if Nat.eqb k d then uf else ub) key' = Ok l.
  Proof.
    clear zero add mul. unfold Mlp_Model.make_mlp. pose proof (proj1 HS key (d + 1)) as HL. set (keys := split key (d + 1)) in *. clearbody keys. destruct (Nat.eqb_spec d 0) as [->|N].
    - destruct (get_ok keys 0) as (k & -> & Hk); [lia|]. cbn [bind]. destruct (make_linear_ok i o uf k) as (l & E & _). rewrite E. cbn [bind]. eexists. split; [reflexivity|]. cbn. do 7 (split; [auto|]). intros [|k'] Hk'; [|lia]. exists l, k. auto.
    - destruct (get_ok keys 0) as (k0 & -> & Hk0); [lia|]. cbn [bind]. destruct (make_linear_ok i (Size w) ub k0) as (l0 & E0 & _). rewrite E0. cbn [bind].
      destruct (mapM_ok (fun j => k <- get keys (j + 1) ;; make_linear (Size w) (Size w) ub k) (seq 0 (d - 1))) as (mid & -> & Lm & Nm).
      { intros j Hj. apply in_seq in Hj. destruct (get_ok keys (j + 1)) as (k & -> & _); [lia|]. cbn [bind]. destruct (make_linear_ok (Size w) (Size w) ub k) as (l & -> & _). eauto. }
      rewrite seq_length in Lm. cbn [bind]. rewrite HL. destruct (get_ok keys (d + 1 - 1)) as (k1 & -> & Hk1); [lia|]. cbn [bind]. destruct (make_linear_ok (Size w) o uf k1) as (l1 & E1 & _). rewrite E1. cbn [bind]. eexists. split; [reflexivity|]. cbn [depth width act final in_size out_size layers].
      do 6 (split; [auto|]). split; [rewrite app_length; cbn; lia|]. intros k Hk. unfold size_at. destruct (Nat.eqb_spec k 0) as [->|K0].
      + exists l0, k0. replace (Nat.eqb 0 d) with false by lia. replace (Nat.eqb (0 + 1) 0) with false by lia. replace (Nat.eqb (0 + 1) (d + 1)) with false by lia. auto.
      + replace (Nat.eqb k (d + 1)) with false by lia. replace (Nat.eqb (k + 1) 0) with false by lia. destruct (Nat.eqb_spec k d) as [->|Kd].
        * rewrite Nat.eqb_refl. exists l1, k1. split; [rewrite nth_error_app2 by (cbn; lia); cbn [length]; replace (d - S (length mid)) with 0 by lia; auto|]. replace (d + 1 - 1) with d in Hk1 by lia. auto.
        * replace (Nat.eqb (k + 1) (d + 1)) with false by lia. destruct (Nm (k - 1) (k - 1)) as (l & Hl & El).
          { rewrite (nth_error_nth' _ 0) by (rewrite seq_length; lia). rewrite seq_nth by lia. auto. }
          replace (k - 1 + 1) with k in El by lia. unfold get in El. destruct (nth_error keys k) as [k'|] eqn:Q; [|discriminate]. cbn [bind] in El. exists l, k'. split; [|auto]. rewrite nth_error_app1 by (cbn; lia). destruct k as [|k]; [lia|]. cbn. replace (S k - 1) with k in Hl by lia. auto.
  Qed.

  (** *** The call *)
  Lemma neurons_ok f vs : exists y, neurons V f (Vec V vs) = Ok (Vec V y) /\ length y = length vs /\ forall j, j < length vs -> nth j y zero = f j (nth j vs zero).
  Proof.
    unfold neurons. eexists. split; [reflexivity|]. split; [rewrite zip_length, seq_length; lia|]. intros j Hj. rewrite (zip_nth _ _ _ j 0 zero) by (rewrite ?seq_length; auto). rewrite seq_nth by auto. auto.
  Qed.
  Lemma skipn_cons {X} (l : list X) k x : nth_error l k = Some x -> skipn k l = x :: skipn (S k) l.
  Proof. revert k. induction l as [|a l IH]; intros [|k] H; try discriminate; cbn in *; [congruence|auto]. Qed.
  Lemma loop_cons m i l l' ls x : loop V zero add mul m i (l :: l' :: ls) x = (y <- call_linear l x ;; z <- neurons V (act V m i) y ;; loop V zero add mul m (i + 1) (l' :: ls) z).
  Proof. reflexivity. Qed.
  Lemma loop_ok m : length (layers V m) = depth V m + 1 ->
    (forall k, k < depth V m + 1 -> exists l, nth_error (layers V m) k = Some l /\ well V l /\ in_features V l = size_at (in_size V m) (out_size V m) (width V m) (depth V m) k /\ out_features V l = size_at (in_size V m) (out_size V m) (width V m) (depth V m) (k + 1)) ->
    forall n k x, depth V m - k = n -> k <= depth V m -> fits V (size_at (in_size V m) (out_size V m) (width V m) (depth V m) k) x ->
    exists y, loop V zero add mul m k (skipn k (layers V m)) x = Ok y /\ fits V (out_size V m) y /\ computes V zero add mul m k (entries V x) (entries V y).
  Proof.
    intros HL HK. induction n as [|n IH]; intros k x Hn Hk HX; destruct (HK k) as (l & El & HW & HI & HO); try lia; rewrite (skipn_cons _ _ _ El); rewrite <- HI in HX; destruct (call_linear_ok l x HW HX) as (y & Ey & Fy & Ly & Ny).
    - assert (k = depth V m) by lia. subst k. rewrite skipn_all2 by lia. cbn [loop]. rewrite Ey. cbn [bind]. rewrite HO in *. unfold size_at in *. replace (Nat.eqb (depth V m + 1) 0) with false in * by lia. rewrite Nat.eqb_refl in *. destruct (out_size V m) as [|o] eqn:EO, y as [v|vs]; try contradiction.
      + eexists. split; [reflexivity|]. split; [cbn; auto|]. eapply CO_last; [exact El|rewrite EO; auto|]. intros [|j] Hj; cbn in *; [|lia]. rewrite (Ny 0) by lia. auto.
      + destruct (neurons_ok (final V m) vs) as (z & -> & Lz & Nz). eexists. split; [reflexivity|]. cbn in *. split; [lia|]. eapply CO_last; [exact El|rewrite EO; cbn; lia|]. intros j Hj. rewrite Nz by lia. rewrite Ny by lia. auto.
    - destruct (HK (k + 1)) as (l' & El' & _); [lia|]. rewrite Nat.add_1_r in El'. rewrite (skipn_cons _ _ _ El'), loop_cons. rewrite Ey. cbn [bind]. assert (ES : size_at (in_size V m) (out_size V m) (width V m) (depth V m) (k + 1) = Size (width V m)).
      { unfold size_at. replace (Nat.eqb (k + 1) 0) with false by lia. replace (Nat.eqb (k + 1) (depth V m + 1)) with false by lia. auto. }
      rewrite HO, ES in *. destruct y as [v|vs]; [contradiction|]. destruct (neurons_ok (act V m k) vs) as (z & -> & Lz & Nz). cbn [bind]. rewrite <- (skipn_cons _ _ _ El'). cbn in Fy, Ly, Ny.
      destruct (IH (S k) (Vec V z)) as (out & Eo & Fo & Co); try lia; [replace (S k) with (k + 1) by lia; rewrite ES; cbn; lia|]. replace (k + 1) with (S k) by lia. exists out. split; [auto|]. split; [auto|]. eapply (CO_hidden _ _ _ _ _ k _ z); try eassumption; [lia|lia|]. intros j Hj. rewrite Nz by lia. rewrite Ny by lia. auto.
  Qed.
End Proofs.

(** depth + 1 layers, whose sizes chain; layer k is made with key k of the split, and the last one with
    [use_final_bias]. *)
Theorem C53_layers : forall V Key split init_w init_b i o w d a f ub uf key, sizes_ok V Key split init_w init_b ->
  exists m, make_mlp V Key split init_w init_b i o w d a f ub uf key = Ok m /\ length (layers V m) = d + 1 /\
  forall k, k <= d -> exists l key', nth_error (layers V m) k = Some l /\ nth_error (split key (d + 1)) k = Some key' /\
    make_linear V Key split init_w init_b (in_features V l) (out_features V l) (use_bias V l) key' = Ok l /\
    in_features V l = size_at i o w d k /\ out_features V l = size_at i o w d (k + 1) /\ use_bias V l = (if Nat.eqb k d then uf else ub) /\ well V l.
Proof.
  intros V Key split init_w init_b i o w d a f ub uf key HS. destruct (make_mlp_ok V Key split init_w init_b HS i o w d a f ub uf key) as (m & Hm & _ & _ & _ & _ & _ & _ & HL & HK). exists m. split; [auto|]. split; [auto|]. intros k Hk. destruct (HK k) as (l & key' & E1 & E2 & E3); [lia|]. exists l, key'.
  destruct (make_linear_ok V Key split init_w init_b HS (size_at i o w d k) (size_at i o w d (k + 1)) (if Nat.eqb k d then uf else ub) key') as (l' & E & A & B & C & D). rewrite E3 in E. injection E as <-. rewrite A, B, C. auto 8.
Qed.
Print Assumptions C53_layers.
(** The call is the composition of the affine maps and activations, neuron by neuron. *)
Theorem C53_call : forall V Key zero add mul split init_w init_b i o w d a f ub uf key m x, sizes_ok V Key split init_w init_b ->
  make_mlp V Key split init_w init_b i o w d a f ub uf key = Ok m -> fits V i x ->
  exists y, call_mlp V zero add mul m x = Ok y /\ fits V o y /\ computes V zero add mul m 0 (entries V x) (entries V y).
Proof.
  intros V Key zero add mul split init_w init_b i o w d a f ub uf key m x HS HM HX. destruct (make_mlp_ok V Key split init_w init_b HS i o w d a f ub uf key) as (m' & Hm & Ed & Ew & Ea & Ef & Ei & Eo & HL & HK). rewrite HM in Hm. injection Hm as <-. unfold call_mlp.
  rewrite <- Eo. apply (loop_ok V zero add mul) with (n := d) (k := 0); auto; try lia; rewrite ?Ed, ?Ei, ?Eo, ?Ew in *; auto.
  intros k Hk. destruct (HK k Hk) as (l & key' & E1 & E2 & E3). exists l. split; [auto|]. destruct (make_linear_ok V Key split init_w init_b HS (size_at i o w d k) (size_at i o w d (k + 1)) (if Nat.eqb k d then uf else ub) key') as (l' & E & A & B & C & D). rewrite E3 in E. injection E as <-. auto.
Qed.
Print Assumptions C53_call.
(** Linear on its own; inputs of the wrong shape are refused. *)
Theorem C53_linear : forall V Key zero add mul split init_w init_b i o b key l x, sizes_ok V Key split init_w init_b -> make_linear V Key split init_w init_b i o b key = Ok l ->
  (fits V i x -> exists y, call_linear V zero add mul l x = Ok y /\ fits V o y /\ forall j, j < dim o -> nth j (entries V y) zero = affine V zero add mul l (entries V x) j) /\
  (~ fits V i x -> call_linear V zero add mul l x = Err (refusal V i x)).
Proof.
  intros V Key zero add mul split init_w init_b i o b key l x HS HM. destruct (make_linear_ok V Key split init_w init_b HS i o b key) as (l' & E & A & B & C & D). rewrite HM in E. injection E as <-. split.
  - intros HX. rewrite <- A in HX. destruct (call_linear_ok V zero add mul l x D HX) as (y & E & F & _ & N). rewrite B in *. eauto.
  - intros HX. unfold call_linear. rewrite A. unfold fits in HX. destruct i as [|n], x as [v|vs]; cbn [bind matvec refusal]; try reflexivity; [exfalso; auto|]. cbn [dim]. destruct (Nat.eqb_spec n (length vs)); [exfalso; auto|]. reflexivity.
Qed.
Print Assumptions C53_linear.
(** A perceptron refuses an input of the wrong shape, as its first layer does. *)
Theorem C53_refused : forall V Key zero add mul split init_w init_b i o w d a f ub uf key m x, sizes_ok V Key split init_w init_b ->
  make_mlp V Key split init_w init_b i o w d a f ub uf key = Ok m -> ~ fits V i x -> call_mlp V zero add mul m x = Err (refusal V i x).
Proof.
  intros V Key zero add mul split init_w init_b i o w d a f ub uf key m x HS HM HX. destruct (make_mlp_ok V Key split init_w init_b HS i o w d a f ub uf key) as (m' & Hm & Ed & Ew & Ea & Ef & Ei & Eo & HL & HK). rewrite HM in Hm. injection Hm as <-.
  destruct (HK 0) as (l & key' & E1 & _ & E3); [lia|]. apply (C53_linear V Key zero add mul split init_w init_b _ _ _ key' l x HS) in E3 as [_ E]. unfold size_at in E. cbn [Nat.eqb] in E. specialize (E HX).
  unfold call_mlp. destruct (layers V m) as [|l0 ls]; [discriminate|]. cbn in E1. injection E1 as ->. cbn [loop]. destruct ls as [|l' ls]; rewrite E; reflexivity.
Qed.
Print Assumptions C53_refused.
Definition zsplit (k : nat) (n : nat) : list nat := map (fun i => 10 * k + i) (seq 0 n).
Definition zw (k o i : nat) : list (list Z) := repeat (repeat (Z.of_nat k) i) o.
Definition zb (k o i : nat) : list Z := repeat (Z.of_nat k) o.
Example C53_ex : sizes_ok Z nat zsplit zw zb /\
  (m <- make_mlp Z nat zsplit zw zb Scalar (Size 3) 2 1 (fun i j v => v + Z.of_nat j)%Z (fun j v => v * Z.of_nat j)%Z true false 0 ;; call_mlp Z 0%Z Z.add Z.mul m (Sc Z 5%Z)) = Ok (Vec Z [0; 30; 60]%Z).
Proof.
  split; [|vm_compute; reflexivity]. split; [intros; unfold zsplit; rewrite map_length, seq_length; auto|]. split; [|intros; apply repeat_length]. intros k o i. split; [apply repeat_length|]. intros row H. apply repeat_spec in H as ->. apply repeat_length.
Qed.
