(** Property C94: layers never use a random key twice, and what they draw. *)
From Verif Require Import Base Init_Model.
Local Open Scope nat_scope.
Local Open Scope list_scope.

(** The key that an event uses up. *)
Definition used (e : event) : key := match e with Split k _ => k | Draw k _ _ => k end.
(** Every key is used at most once, and is the given one or comes from an earlier split. *)
Definition disciplined (k : key) (tr : list event) : Prop :=
  NoDup (map used tr) /\
  forall pre e post, tr = pre ++ e :: post ->
    used e = k \/ exists k' n i, used e = Child k' n i /\ i < n /\ In (Split k' n) pre.

Inductive above (a : key) : key -> Prop :=
| above_refl : above a a
| above_child k n i : above a k -> above a (Child k n i).

Fixpoint depth (k : key) : nat := match k with Root _ => 0 | Child k _ _ => S (depth k) end.
Lemma above_depth a k : above a k -> depth a <= depth k.
Proof. induction 1; cbn; lia. Qed.
Lemma above_trans a b c : above a b -> above b c -> above a c.
Proof. intros H1 H2; induction H2; [exact H1 | constructor; exact IHabove]. Qed.
Lemma above_eq a b : above a b -> depth a = depth b -> a = b.
Proof. intros H; inversion H; subst; [reflexivity|]. cbn. intros D. apply above_depth in H0. lia. Qed.
Lemma above_same a b c : above a c -> above b c -> depth a = depth b -> a = b.
Proof.
  intros H; revert b; induction H as [|k n i H IH]; intros b Hb D.
  - symmetry; apply above_eq; [exact Hb | lia].
  - inversion Hb; subst.
    + exfalso. apply above_depth in H. cbn in D. lia.
    + apply IH; assumption.
Qed.

Lemma disciplined_above k tr : disciplined k tr -> forall e, In e tr -> above k (used e).
Proof.
  intros [_ D]. 
  assert (G : forall n pre post, length pre = n -> tr = pre ++ post -> forall e, In e pre -> above k (used e)).
  { induction n as [|n IH]; intros pre post L E e He.
    - destruct pre; [destruct He | discriminate].
    - destruct pre as [|x pre0 _] using rev_ind; [destruct He|].
      rewrite app_length in L; cbn in L. rewrite <- app_assoc in E. cbn in E.
      assert (Hpre : forall e0, In e0 pre0 -> above k (used e0)) by (apply (IH pre0 (x :: post)); [lia | exact E]).
      apply in_app_iff in He. destruct He as [He|[<-|[]]]; [exact (Hpre e He)|].
      destruct (D pre0 x post E) as [->|(k' & m & i & -> & _ & Hs)]; [constructor|].
      constructor. apply (Hpre _ Hs). }
  intros e He. apply (G (length tr) tr []); [reflexivity | rewrite app_nil_r; reflexivity | exact He].
Qed.

Lemma disciplined_nil k : disciplined k [].
Proof. split; [constructor | intros [|? ?] ? ? H; discriminate]. Qed.
Lemma disciplined_draw k d s : disciplined k [Draw k d s].
Proof.
  split; [repeat constructor; intros []|]. intros [|x pre] e post H; cbn in H.
  - injection H as <- _. left; reflexivity.
  - injection H as _ H. destruct pre; discriminate.
Qed.
Lemma disciplined_split k n : disciplined k [Split k n].
Proof.
  split; [repeat constructor; intros []|]. intros [|x pre] e post H; cbn in H.
  - injection H as <- _. left; reflexivity.
  - injection H as _ H. destruct pre; discriminate.
Qed.

Lemma app_split {A} (a b : list A) pre e post : a ++ b = pre ++ e :: post ->
  (exists r, a = pre ++ e :: r) \/ (exists r, pre = a ++ r /\ b = r ++ e :: post).
Proof.
  revert pre; induction a as [|x a IH]; intros pre H; cbn in H.
  - right. exists pre. split; [reflexivity | exact H].
  - destruct pre as [|y pre]; cbn in H.
    + injection H as <- _. left. exists a. reflexivity.
    + injection H as <- H. destruct (IH _ H) as [[r ->]|(r & -> & ->)].
      * left. exists r. reflexivity.
      * right. exists r. split; reflexivity.
Qed.

(** A split followed by uses of different children. *)
Lemma disciplined_children k n (parts : list (nat * list event)) :
  NoDup (map fst parts) -> (forall i tr, In (i, tr) parts -> i < n /\ disciplined (Child k n i) tr) ->
  disciplined k (Split k n :: concat (map snd parts)).
Proof.
  intros ND H.
  assert (G : NoDup (map used (concat (map snd parts))) /\
              (forall e, In e (concat (map snd parts)) -> exists i, In i (map fst parts) /\ above (Child k n i) (used e)) /\
              (forall pre e post, concat (map snd parts) = pre ++ e :: post ->
                 exists i, i < n /\ (used e = Child k n i \/ exists k' m j, used e = Child k' m j /\ j < m /\ In (Split k' m) pre))).
  { induction parts as [|[i tr] parts IH]; cbn [map fst snd concat] in *.
    - split; [constructor|]. split; [intros e []|]. intros [|? ?] ? ? E; discriminate.
    - inversion ND as [|? ? NI ND']; subst.
      destruct (IH ND' (fun j t Hj => H j t (or_intror Hj))) as (I1 & I2 & I3). clear IH.
      destruct (H i tr (or_introl eq_refl)) as [Hi Di].
      pose proof (disciplined_above _ _ Di) as Ai. destruct Di as [Ni Pi].
      assert (Dis : forall e e', In e tr -> In e' (concat (map snd parts)) -> used e <> used e').
      { intros e e' He He' E. apply Ai in He. destruct (I2 _ He') as (j & Hj & Aj). rewrite E in He.
        assert (X : Child k n i = Child k n j) by (apply (above_same _ _ _ He Aj); reflexivity).
        injection X as ->. exact (NI Hj). }
      split; [|split].
      + rewrite map_app. clear -Ni I1 Dis. revert I1 Ni Dis. generalize (concat (map snd parts)) as c. intros c I1 Ni Dis.
        induction tr as [|e tr IH]; cbn [map app]; [exact I1|].
        inversion Ni as [|? ? NI' N']; subst. constructor.
        * rewrite in_app_iff. intros [X|X]; [exact (NI' X)|].
          apply in_map_iff in X. destruct X as (e' & E & He'). apply (Dis e e'); [left; reflexivity | exact He' | congruence].
        * apply IH; [exact N'|]. intros x y Hx. apply Dis. right; exact Hx.
      + intros e He. apply in_app_iff in He. destruct He as [He|He].
        * exists i. split; [left; reflexivity | exact (Ai _ He)].
        * destruct (I2 _ He) as (j & Hj & Aj). exists j. split; [right; exact Hj | exact Aj].
      + intros pre e post E. apply app_split in E. destruct E as [[r E]|(r & -> & E)].
        * exists i. split; [exact Hi|]. exact (Pi _ _ _ E).
        * destruct (I3 _ _ _ E) as (j & Hj & [X|(k' & m & l & X & Hl & Hs)]); exists j; split; try exact Hj.
          -- left; exact X.
          -- right. exists k', m, l. repeat split; try assumption. apply in_or_app. right. exact Hs. }
  destruct G as (G1 & G2 & G3). split.
  - cbn [map used]. constructor; [|exact G1]. intros X. apply in_map_iff in X. destruct X as (e & E & He).
    destruct (G2 _ He) as (i & _ & A). rewrite E in A. apply above_depth in A. cbn in A. lia.
  - intros [|x pre] e post E; cbn in E.
    + injection E as <- _. left. reflexivity.
    + injection E as <- E. right. destruct (G3 _ _ _ E) as (i & Hi & [X|(k' & m & j & X & Hj & Hs)]).
      * exists k, n, i. repeat split; try assumption. left; reflexivity.
      * exists k', m, j. repeat split; try assumption. right; exact Hs.
Qed.

(** What each constructor does with its key. *)
Inductive constructs (k : key) : list event -> Prop :=
| c_linear i o b cx : constructs k (fst (make_linear i o b cx k))
| c_mlp i o w d b fb cx : constructs k (fst (make_mlp i o w d b fb cx k))
| c_gru i h b cx : constructs k (fst (make_gru i h b cx k))
| c_lstm i h b cx : constructs k (fst (make_lstm i h b cx k))
| c_conv i o g ker b cx : constructs k (fst (make_conv i o g ker b cx k))
| c_conv_transpose i o g ker b cx : constructs k (fst (make_conv_transpose i o g ker b cx k))
| c_mha h q kk v o qk vo b1 b2 b3 b4 cx : constructs k (fst (make_mha h q kk v o qk vo b1 b2 b3 b4 cx k))
| c_embedding n s : constructs k (fst (make_embedding n s k))
| c_spectral sh : constructs k (fst (make_spectral sh k)).

(** The array that [default_init] draws with key [k]. *)
Definition drawn (k : key) (shape : list nat) (cx : bool) (d : nat) : param :=
  if cx then Complex (Child k 2 0, Uniform d, shape) (Child k 2 1, Uniform d, shape) else Real (k, Uniform d, shape).

Lemma init_value k sh cx d : snd (default_init k sh cx d) = Ok (drawn k sh cx d).
Proof. destruct cx; reflexivity. Qed.
Lemma init_disciplined k sh cx d : disciplined k (fst (default_init k sh cx d)).
Proof.
  destruct cx; [|exact (disciplined_draw _ _ _)].
  apply (disciplined_children k 2 [(0, [Draw (Child k 2 0) (Uniform d) sh]); (1, [Draw (Child k 2 1) (Uniform d) sh])]).
  - repeat constructor; cbn; intuition discriminate.
  - cbn. intros i tr [E|[E|[]]]; injection E as <- <-; (split; [lia | apply disciplined_draw]).
Qed.
Lemma when_value {A} b (x : M A) a : snd x = Ok a -> snd (when b x) = Ok (if b then Some a else None).
Proof. unfold when, andthen. intros E. destruct b; [rewrite E|]; reflexivity. Qed.
Lemma when_disciplined {A} k b (x : M A) : disciplined k (fst x) -> disciplined k (fst (when b x)).
Proof.
  intros D. destruct b; [|apply disciplined_nil]. unfold when, andthen. destruct (snd x) as [a|e]; cbn [fst].
  - cbn. rewrite app_nil_r. exact D.
  - exact D.
Qed.
Lemma andthen_ok {A B} (x : M A) (f : A -> M B) a : snd x = Ok a ->
  fst (andthen x f) = fst x ++ fst (f a) /\ snd (andthen x f) = snd (f a).
Proof. intros E. unfold andthen. rewrite E. split; reflexivity. Qed.

Lemma split_ok {B} k n (f : list key -> M B) :
  fst (andthen (split k n) f) = Split k n :: fst (f (map (Child k n) (seq 0 n))) /\
  snd (andthen (split k n) f) = snd (f (map (Child k n) (seq 0 n))).
Proof. unfold andthen, split. cbn [fst snd app]. split; reflexivity. Qed.

(** A weight with key [wkey] and perhaps a bias with key [bkey]. *)
Definition pair_of (wkey bkey : key) (wsh bsh : list nat) (b cx : bool) (d : nat) : linear :=
  {| weight := drawn wkey wsh cx d; bias := if b then Some (drawn bkey bsh cx d) else None |}.

Lemma pair_run wkey bkey wsh bsh b cx d :
  let m := andthen (default_init wkey wsh cx d) (fun w => andthen (when b (default_init bkey bsh cx d)) (fun c => ret {| weight := w; bias := c |})) in
  fst m = fst (default_init wkey wsh cx d) ++ fst (when b (default_init bkey bsh cx d)) /\ snd m = Ok (pair_of wkey bkey wsh bsh b cx d).
Proof.
  cbv zeta. destruct (andthen_ok _ (fun w => andthen (when b (default_init bkey bsh cx d)) (fun c => ret {| weight := w; bias := c |})) _ (init_value wkey wsh cx d)) as [-> ->].
  destruct (andthen_ok _ (fun c => ret {| weight := drawn wkey wsh cx d; bias := c |}) _ (when_value b _ _ (init_value bkey bsh cx d))) as [-> ->].
  cbn [fst snd ret]. rewrite app_nil_r. split; reflexivity.
Qed.

Definition nodup2 : NoDup [0; 1]. Proof. repeat constructor; cbn; intuition discriminate. Qed.
Definition nodup4 : NoDup [0; 1; 2; 3]. Proof. repeat constructor; cbn; intuition discriminate. Qed.
Definition nodup3 : NoDup [0; 1; 2]. Proof. repeat constructor; cbn; intuition discriminate. Qed.

Lemma linear_run i o b cx k :
  snd (make_linear i o b cx k) = Ok (pair_of (Child k 2 0) (Child k 2 1) [o; i] [o] b cx (Nat.max 1 i)) /\
  disciplined k (fst (make_linear i o b cx k)).
Proof.
  unfold make_linear.
  assert (L : (if Nat.eqb i 0 then 1 else i) = Nat.max 1 i) by (destruct (Nat.eqb_spec i 0); lia). rewrite L.
  match goal with |- snd (andthen (split k 2) ?f) = _ /\ _ => destruct (split_ok k 2 f) as [-> ->] end.
  cbv beta. cbn [seq map two].
  destruct (pair_run (Child k 2 0) (Child k 2 1) [o; i] [o] b cx (Nat.max 1 i)) as [F S]. cbv zeta in F, S.
  rewrite F, S. split; [reflexivity|].
  pose proof (disciplined_children k 2 [(0, fst (default_init (Child k 2 0) [o; i] cx (Nat.max 1 i)));
     (1, fst (when b (default_init (Child k 2 1) [o] cx (Nat.max 1 i))))] nodup2) as D.
  cbn [map snd concat] in D. rewrite app_nil_r in D. apply D.
  intros j tr [E|[E|[]]]; injection E as <- <-; (split; [lia|]).
  - apply init_disciplined.
  - apply when_disciplined, init_disciplined.
Qed.

Lemma each_run {A B} (f : A -> M B) (v : A -> B) l : (forall a, In a l -> snd (f a) = Ok (v a)) ->
  fst (each f l) = concat (map (fun a => fst (f a)) l) /\ snd (each f l) = Ok (map v l).
Proof.
  induction l as [|a l IH]; intros H; [split; reflexivity|].
  destruct (IH (fun x Hx => H x (or_intror Hx))) as [F S]. cbn [each].
  destruct (andthen_ok _ (fun b => andthen (each f l) (fun bs => ret (b :: bs))) _ (H a (or_introl eq_refl))) as [-> ->].
  destruct (andthen_ok _ (fun bs => ret (v a :: bs)) _ S) as [-> ->].
  rewrite F. cbn [fst snd ret map concat]. rewrite app_nil_r. split; reflexivity.
Qed.
Lemma item_ok {A B} (l : list A) i a (f : A -> M B) : nth_error l i = Some a -> andthen (item l i) f = f a.
Proof. intros E. unfold item, andthen. rewrite E. cbn. destruct (f a); reflexivity. Qed.
Lemma keys_nth k n i : i < n -> nth_error (map (Child k n) (seq 0 n)) i = Some (Child k n i).
Proof.
  intros H. rewrite nth_error_map. assert (E : nth_error (seq 0 n) i = Some i).
  { rewrite (nth_error_nth' (seq 0 n) 0) by (rewrite seq_length; exact H). rewrite seq_nth by exact H. reflexivity. }
  rewrite E. reflexivity.
Qed.

(** The j-th of the d + 1 layers of an MLP. *)
Definition mlp_in (i w j : nat) : nat := if Nat.eqb j 0 then i else w.
Definition mlp_out (o w d j : nat) : nat := if Nat.eqb j d then o else w.
Definition mlp_bias (b fb : bool) (d j : nat) : bool := if Nat.eqb j d then fb else b.
Definition linear_of (i o : nat) (b cx : bool) (k : key) : linear :=
  pair_of (Child k 2 0) (Child k 2 1) [o; i] [o] b cx (Nat.max 1 i).

Lemma mlp_run i o w d b fb cx k :
  let layer j := make_linear (mlp_in i w j) (mlp_out o w d j) (mlp_bias b fb d j) cx (Child k (d + 1) j) in
  fst (make_mlp i o w d b fb cx k) = Split k (d + 1) :: concat (map (fun j => fst (layer j)) (seq 0 (d + 1))) /\
  snd (make_mlp i o w d b fb cx k) =
    Ok (map (fun j => linear_of (mlp_in i w j) (mlp_out o w d j) (mlp_bias b fb d j) cx (Child k (d + 1) j)) (seq 0 (d + 1))).
Proof.
  cbv zeta. unfold make_mlp.
  match goal with |- fst (andthen (split k _) ?f) = _ /\ _ => destruct (split_ok k (d + 1) f) as [-> ->] end. cbv beta.
  destruct (Nat.eqb_spec d 0) as [->|Hd].
  - rewrite (item_ok _ _ (Child k 1 0)) by reflexivity.
    match goal with |- _ /\ snd (andthen ?x ?f) = _ => destruct (andthen_ok x f _ (proj1 (linear_run i o fb cx (Child k 1 0)))) as [-> ->] end.
    cbn [fst snd ret]. cbn [seq map concat Nat.add]. unfold mlp_in, mlp_out, mlp_bias. cbn [Nat.eqb]. split; reflexivity.
  - rewrite (item_ok _ _ (Child k (d + 1) 0)) by (apply keys_nth; lia).
    match goal with |- _ /\ snd (andthen ?x ?f) = _ => destruct (andthen_ok x f _ (proj1 (linear_run i w b cx (Child k (d + 1) 0)))) as [-> ->] end.
    assert (EF : forall j, In j (seq 0 (d - 1)) ->
       andthen (item (map (Child k (d + 1)) (seq 0 (d + 1))) (j + 1)) (fun kj => make_linear w w b cx kj) = make_linear w w b cx (Child k (d + 1) (j + 1))).
    { intros j Hj. apply in_seq in Hj. apply item_ok. apply keys_nth. lia. }
    destruct (each_run (fun j => andthen (item (map (Child k (d + 1)) (seq 0 (d + 1))) (j + 1)) (fun kj => make_linear w w b cx kj))
                (fun j => linear_of w w b cx (Child k (d + 1) (j + 1))) (seq 0 (d - 1))) as [EFst ESnd].
    { intros j Hj. rewrite (EF j Hj). apply linear_run. }
    match goal with |- _ /\ snd (andthen ?x ?f) = _ => destruct (andthen_ok x f _ ESnd) as [-> ->] end.
    rewrite EFst. rewrite (map_ext_in _ (fun j => fst (make_linear w w b cx (Child k (d + 1) (j + 1))))) by (intros j Hj; rewrite (EF j Hj); reflexivity).
    rewrite map_length, seq_length. replace (d + 1 - 1) with d by lia.
    rewrite (item_ok _ _ (Child k (d + 1) d)) by (apply keys_nth; lia).
    match goal with |- _ /\ snd (andthen ?x ?f) = _ => destruct (andthen_ok x f _ (proj1 (linear_run w o fb cx (Child k (d + 1) d)))) as [-> ->] end.
    cbn [fst snd ret]. rewrite app_nil_r.
    assert (SQ : seq 0 (d + 1) = 0 :: map (fun j => j + 1) (seq 0 (d - 1)) ++ [d]).
    { replace (d + 1) with (S (d - 1 + 1)) by lia. cbn [seq]. f_equal. rewrite <- seq_shift, seq_app, map_app. cbn [seq map].
      f_equal; [apply map_ext; intros; lia | f_equal; lia]. }
    assert (Emid : forall (X : Type) (g h : nat -> X), (forall j, In j (seq 0 (d - 1)) -> g (j + 1) = h j) ->
              map g (map (fun j => j + 1) (seq 0 (d - 1))) = map h (seq 0 (d - 1))).
    { intros X g h Hgh. rewrite map_map. apply map_ext_in. exact Hgh. }
    assert (In1 : forall j, mlp_in i w (j + 1) = w) by (intros j; unfold mlp_in; destruct (Nat.eqb_spec (j + 1) 0); [lia | reflexivity]).
    assert (Ind : mlp_in i w d = w) by (unfold mlp_in; destruct (Nat.eqb_spec d 0); [lia | reflexivity]).
    assert (Out0 : mlp_out o w d 0 = w) by (unfold mlp_out; destruct (Nat.eqb_spec 0 d); [lia | reflexivity]).
    assert (Outd : mlp_out o w d d = o) by (unfold mlp_out; rewrite Nat.eqb_refl; reflexivity).
    assert (B0 : mlp_bias b fb d 0 = b) by (unfold mlp_bias; destruct (Nat.eqb_spec 0 d); [lia | reflexivity]).
    assert (Bd : mlp_bias b fb d d = fb) by (unfold mlp_bias; rewrite Nat.eqb_refl; reflexivity).
    assert (Om : forall j, In j (seq 0 (d - 1)) -> mlp_out o w d (j + 1) = w).
    { intros j Hj. apply in_seq in Hj. unfold mlp_out; destruct (Nat.eqb_spec (j + 1) d); [lia | reflexivity]. }
    assert (Bm : forall j, In j (seq 0 (d - 1)) -> mlp_bias b fb d (j + 1) = b).
    { intros j Hj. apply in_seq in Hj. unfold mlp_bias; destruct (Nat.eqb_spec (j + 1) d); [lia | reflexivity]. }
    rewrite SQ. cbn [map concat]. rewrite !map_app, concat_app. cbn [map concat].
    rewrite (Emid (list event) _ (fun j => fst (make_linear w w b cx (Child k (d + 1) (j + 1)))))
      by (intros j Hj; rewrite In1, (Om j Hj), (Bm j Hj); reflexivity).
    rewrite (Emid linear _ (fun j => linear_of w w b cx (Child k (d + 1) (j + 1))))
      by (intros j Hj; rewrite In1, (Om j Hj), (Bm j Hj); reflexivity).
    rewrite Ind, Outd, Bd, Out0, B0, app_nil_r. unfold mlp_in. cbn [Nat.eqb]. split; reflexivity.
Qed.

Lemma mlp_disciplined i o w d b fb cx k : disciplined k (fst (make_mlp i o w d b fb cx k)).
Proof.
  destruct (mlp_run i o w d b fb cx k) as [-> _].
  pose proof (disciplined_children k (d + 1)
    (map (fun j => (j, fst (make_linear (mlp_in i w j) (mlp_out o w d j) (mlp_bias b fb d j) cx (Child k (d + 1) j)))) (seq 0 (d + 1)))) as D.
  rewrite !map_map in D. cbn [fst snd] in D. rewrite map_id in D. apply D; [apply seq_NoDup|].
  intros j tr H. apply in_map_iff in H. destruct H as (j' & E & Hj). injection E as <- <-. apply in_seq in Hj.
  split; [lia | apply linear_run].
Qed.

(** Two-element families. *)
Lemma disciplined_pair k t0 t1 : disciplined (Child k 2 0) t0 -> disciplined (Child k 2 1) t1 -> disciplined k (Split k 2 :: t0 ++ t1).
Proof.
  intros D0 D1. pose proof (disciplined_children k 2 [(0, t0); (1, t1)] nodup2) as D.
  cbn [map snd concat] in D. rewrite app_nil_r in D. apply D.
  intros j tr [E|[E|[]]]; injection E as <- <-; (split; [lia | assumption]).
Qed.
Lemma conv_run wk bk i o g ker b cx :
  conv_params wk bk i o g ker b cx =
  if Nat.eqb (i / g * prod ker) 0 then ([], Err ZeroDivisionError)
  else (fst (default_init wk (o :: i / g :: ker) cx (i / g * prod ker)) ++
        fst (when b (default_init bk (o :: map (fun _ => 1) ker) cx (i / g * prod ker))),
        Ok (pair_of wk bk (o :: i / g :: ker) (o :: map (fun _ => 1) ker) b cx (i / g * prod ker))).
Proof.
  unfold conv_params. cbv zeta. destruct (Nat.eqb (i / g * prod ker) 0); [reflexivity|].
  destruct (pair_run wk bk (o :: i / g :: ker) (o :: map (fun _ => 1) ker) b cx (i / g * prod ker)) as [F S].
  cbv zeta in F, S. match goal with |- ?m = _ => rewrite (surjective_pairing m) end. rewrite F, S. reflexivity.
Qed.
Lemma conv_disciplined i o g ker b cx k :
  disciplined k (Split k 2 :: fst (conv_params (Child k 2 0) (Child k 2 1) i o g ker b cx)).
Proof.
  rewrite conv_run. destruct (Nat.eqb (i / g * prod ker) 0); [apply disciplined_split|]. cbn [fst].
  apply disciplined_pair; [apply init_disciplined | apply when_disciplined, init_disciplined].
Qed.

Theorem C94_construct k tr : constructs k tr -> disciplined k tr.
Proof.
  intros H; destruct H.
  - apply linear_run.
  - apply mlp_disciplined.
  - unfold make_gru. match goal with |- disciplined _ (fst (andthen (split k _) ?f)) => destruct (split_ok k 4 f) as [-> _] end.
    cbv beta. cbn [seq map four]. destruct (Nat.eqb h 0); [apply disciplined_split|].
    rewrite (proj1 (andthen_ok _ _ _ (init_value _ _ _ _))). rewrite (proj1 (andthen_ok _ _ _ (init_value _ _ _ _))).
    rewrite (proj1 (andthen_ok _ _ _ (when_value b _ _ (init_value _ _ _ _)))). rewrite (proj1 (andthen_ok _ _ _ (when_value b _ _ (init_value _ _ _ _)))).
    cbn [fst ret].
    match goal with |- disciplined _ (_ :: ?a ++ ?b ++ ?c ++ ?d ++ []) =>
      pose proof (disciplined_children k 4 [(0, a); (1, b); (2, c); (3, d)] nodup4) as D end.
    apply D. intros j tr [E|[E|[E|[E|[]]]]]; injection E as <- <-; (split; [lia|]);
      first [apply init_disciplined | apply when_disciplined, init_disciplined].
  - unfold make_lstm. match goal with |- disciplined _ (fst (andthen (split k _) ?f)) => destruct (split_ok k 3 f) as [-> _] end.
    cbv beta. cbn [seq map three]. destruct (Nat.eqb h 0); [apply disciplined_split|].
    rewrite (proj1 (andthen_ok _ _ _ (init_value _ _ _ _))). rewrite (proj1 (andthen_ok _ _ _ (init_value _ _ _ _))).
    rewrite (proj1 (andthen_ok _ _ _ (when_value b _ _ (init_value _ _ _ _)))).
    cbn [fst ret].
    match goal with |- disciplined _ (_ :: ?a ++ ?b ++ ?c ++ []) =>
      pose proof (disciplined_children k 3 [(0, a); (1, b); (2, c)] nodup3) as D end.
    apply D. intros j tr [E|[E|[E|[]]]]; injection E as <- <-; (split; [lia|]);
      first [apply init_disciplined | apply when_disciplined, init_disciplined].
  - unfold make_conv. destruct (Nat.eqb g 0); [apply disciplined_nil|]. destruct (negb _); [apply disciplined_nil|].
    match goal with |- disciplined _ (fst (andthen (split k _) ?f)) => destruct (split_ok k 2 f) as [-> _] end.
    cbv beta. cbn [seq map two]. apply conv_disciplined.
  - unfold make_conv_transpose.
    match goal with |- disciplined _ (fst (andthen (split k _) ?f)) => destruct (split_ok k 2 f) as [-> _] end.
    cbv beta. cbn [seq map two]. destruct (Nat.eqb g 0); [apply disciplined_split | apply conv_disciplined].
  - unfold make_mha. match goal with |- disciplined _ (fst (andthen (split k _) ?f)) => destruct (split_ok k 4 f) as [-> _] end.
    cbv beta. cbn [seq map four].
    do 4 rewrite (proj1 (andthen_ok _ _ _ (proj1 (linear_run _ _ _ _ _)))). cbn [fst ret].
    match goal with |- disciplined _ (_ :: ?a ++ ?b ++ ?c ++ ?d ++ []) =>
      pose proof (disciplined_children k 4 [(0, a); (1, b); (2, c); (3, d)] nodup4) as D end.
    apply D. intros j tr [E|[E|[E|[E|[]]]]]; injection E as <- <-; (split; [lia | apply linear_run]).
  - apply disciplined_draw.
  - unfold make_spectral. destruct sh as [|r [|c sh]]; try apply disciplined_nil.
    destruct (Nat.eqb r 0); [apply disciplined_nil|]. apply (disciplined_pair k [_] [_]); apply disciplined_draw.
Qed.
Print Assumptions C94_construct.

Fixpoint layer_rect' (P : layer -> Prop) (hD : forall a s, P (Dropout a s)) (hI : P Ignores)
    (hA : forall h a s, P (Attention h a s)) (hS : forall ls, Forall P ls -> P (Sequential ls)) (l : layer) : P l :=
  match l with
  | Dropout a s => hD a s
  | Ignores => hI
  | Attention h a s => hA h a s
  | Sequential ls => hS ls ((fix go ls : Forall P ls := match ls with [] => Forall_nil P | l :: ls' => Forall_cons l (layer_rect' P hD hI hA hS l) (go ls') end) ls)
  end.

Definition run_all : list layer -> list (option key) -> M unit :=
  fix go ls ks := match ls, ks with l :: ls', k :: ks' => andthen (call l k) (fun _ => go ls' ks') | _, _ => ret tt end.

Lemma run_all_some k n : forall ls s,
  Forall (fun l => forall k, snd (call l (Some k)) = Ok tt /\ disciplined k (fst (call l (Some k)))) ls ->
  fst (run_all ls (map Some (map (Child k n) (seq s (length ls))))) =
    concat (map snd (map (fun p => (fst p, fst (call (snd p) (Some (Child k n (fst p)))))) (List.combine (seq s (length ls)) ls))) /\
  snd (run_all ls (map Some (map (Child k n) (seq s (length ls))))) = Ok tt.
Proof.
  induction ls as [|l ls IH]; intros s F; [split; reflexivity|].
  inversion F as [|? ? Hl Hls]; subst. cbn [length seq map run_all List.combine concat fst snd].
  destruct (andthen_ok _ (fun _ => run_all ls (map Some (map (Child k n) (seq (S s) (length ls))))) _ (proj1 (Hl (Child k n s)))) as [-> ->].
  destruct (IH (S s) Hls) as [-> ->]. split; reflexivity.
Qed.

Lemma call_some l : forall k, snd (call l (Some k)) = Ok tt /\ disciplined k (fst (call l (Some k))).
Proof.
  induction l as [a s| |h a s|ls F] using layer_rect'; intros k.
  - destruct a; split; try reflexivity; [exact (disciplined_draw _ _ _) | apply disciplined_nil].
  - split; [reflexivity | apply disciplined_nil].
  - cbn [call]. unfold keys_for.
    assert (K : andthen (split k h) (fun ks => ret (map Some ks)) = ([Split k h], Ok (map Some (map (Child k h) (seq 0 h))))) by reflexivity.
    rewrite K. clear K.
    destruct (each_run (call_dropout a s) (fun _ => tt) (map Some (map (Child k h) (seq 0 h)))) as [EF ES].
    { intros o Ho. apply in_map_iff in Ho. destruct Ho as (k' & <- & _). destruct a; reflexivity. }
    match goal with |- snd (andthen ?x ?f) = _ /\ _ => destruct (andthen_ok x f _ eq_refl) as [-> ->] end.
    match goal with |- snd (andthen ?x ?f) = _ /\ _ => destruct (andthen_ok x f _ ES) as [-> ->] end.
    split; [reflexivity|]. rewrite EF. cbn [fst ret app]. rewrite app_nil_r, !map_map.
    pose proof (disciplined_children k h (map (fun i => (i, fst (call_dropout a s (Some (Child k h i))))) (seq 0 h))) as D.
    rewrite !map_map in D. cbn [fst snd] in D. rewrite map_id in D. apply D; [apply seq_NoDup|].
    intros j tr H. apply in_map_iff in H. destruct H as (j' & E & Hj). injection E as <- <-. apply in_seq in Hj.
    split; [lia|]. destruct a; [exact (disciplined_draw _ _ _) | apply disciplined_nil].
  - cbn [call]. fold run_all. unfold keys_for.
    assert (K : andthen (split k (length ls)) (fun ks => ret (map Some ks)) = ([Split k (length ls)], Ok (map Some (map (Child k (length ls)) (seq 0 (length ls)))))) by reflexivity.
    rewrite K. clear K.
    match goal with |- snd (andthen ?x ?f) = _ /\ _ => destruct (andthen_ok x f _ eq_refl) as [-> ->] end. cbv beta.
    destruct (run_all_some k (length ls) ls 0 F) as [-> ->]. split; [reflexivity|]. cbn [fst app].
    apply disciplined_children.
    + rewrite map_map. cbn [fst]. rewrite (map_ext _ fst) by reflexivity.
      replace (map fst (List.combine (seq 0 (length ls)) ls)) with (seq 0 (length ls)); [apply seq_NoDup|].
      clear. generalize 0 as s. induction ls as [|l ls IH]; intros s; cbn; [reflexivity|]. f_equal. apply IH.
    + intros i tr H. apply in_map_iff in H. destruct H as ([j l] & E & Hj). cbn [fst snd] in E. injection E as <- <-.
      pose proof (in_combine_l _ _ _ _ Hj) as Hs. apply in_combine_r in Hj. apply in_seq in Hs.
      split; [lia|]. rewrite Forall_forall in F. apply (F l Hj).
Qed.

(** Whether some dropout in a layer is active. *)
Fixpoint wants_key (l : layer) : bool :=
  match l with
  | Dropout a _ => a
  | Ignores => false
  | Attention h a _ => a && negb (Nat.eqb h 0)
  | Sequential ls => existsb wants_key ls
  end.

(** Calling: with a key, it succeeds and no key is used twice; without, nothing is used and it fails exactly if some dropout is active. *)
Theorem C94_call l :
  (forall k, snd (call l (Some k)) = Ok tt /\ disciplined k (fst (call l (Some k)))) /\
  call l None = ([], if wants_key l then Err RuntimeError else Ok tt).
Proof.
  split; [apply call_some|].
  induction l as [a s| |h a s|ls F] using layer_rect'.
  - destruct a; reflexivity.
  - reflexivity.
  - cbn [call wants_key]. unfold keys_for, andthen at 1. cbn [fst snd ret app].
    destruct h as [|h]; [rewrite andb_false_r; reflexivity|]. cbn [repeat each Nat.eqb negb]. rewrite andb_true_r.
    destruct a; [reflexivity|].
    assert (E : forall n, each (call_dropout false s) (repeat None n) = ([], Ok (repeat tt n))).
    { induction n as [|n IH]; [reflexivity|]. cbn [repeat each]. rewrite IH. reflexivity. }
    rewrite E. reflexivity.
  - cbn [call wants_key]. fold run_all. unfold keys_for, andthen at 1. cbn [fst snd ret app].
    assert (E : run_all ls (repeat None (length ls)) = ([], if existsb wants_key ls then Err RuntimeError else Ok tt)).
    { induction ls as [|l ls IH]; [reflexivity|]. inversion F as [|? ? Hl Hls]; subst.
      cbn [length repeat run_all existsb]. unfold andthen. rewrite Hl. destruct (wants_key l); cbn [fst snd orb app]; [reflexivity|].
      rewrite (IH Hls). reflexivity. }
    rewrite E. reflexivity.
Qed.
Print Assumptions C94_call.

(** Two draws of one run have unrelated keys: neither is derived from the other. *)
Theorem C94_independent k tr pre k1 d1 s1 mid k2 d2 s2 post :
  disciplined k tr -> tr = pre ++ Draw k1 d1 s1 :: mid ++ Draw k2 d2 s2 :: post -> ~ above k1 k2 /\ ~ above k2 k1.
Proof.
  intros Dk E. pose proof (disciplined_above _ _ Dk) as A. destruct Dk as [N D].
  assert (C : forall a x, above a x -> forall e, In e tr -> used e = x -> above k a -> a <> x -> exists n, In (Split a n) tr).
  { intros a x H. induction H as [|x n i H IH]; intros e He U Ka Ne; [congruence|].
    apply in_split in He. destruct He as (p & q & Et). destruct (D p e q Et) as [X|(k' & m & j & X & _ & Hs)].
    - exfalso. rewrite U in X. rewrite <- X in Ka. apply above_depth in Ka. apply above_depth in H. cbn in Ka. lia.
    - rewrite U in X. injection X as -> -> ->.
      assert (Hin : In (Split k' m) tr) by (rewrite Et; apply in_or_app; left; exact Hs).
      assert (Dec : a = k' \/ a <> k').
      { destruct (Nat.eq_dec (depth a) (depth k')) as [E1|E1]; [left; apply above_eq; assumption | right; congruence]. }
      destruct Dec as [->|Ne']; [exists m; exact Hin|].
      apply (IH (Split k' m) Hin eq_refl Ka Ne'). }
  assert (T : forall e e', In e tr -> In e' tr -> used e = used e' -> e = e').
  { clear -N. induction tr as [|x tr IH]; intros e e' He He' U; [destruct He|]. inversion N as [|? ? NI N']; subst.
    destruct He as [<-|He]; destruct He' as [<-|He']; try reflexivity.
    - exfalso. apply NI. rewrite U. apply in_map. exact He'.
    - exfalso. apply NI. rewrite <- U. apply in_map. exact He.
    - apply IH; assumption. }
  assert (H1 : In (Draw k1 d1 s1) tr) by (rewrite E; apply in_or_app; right; left; reflexivity).
  assert (H2 : In (Draw k2 d2 s2) tr) by (rewrite E; apply in_or_app; right; right; apply in_or_app; right; left; reflexivity).
  assert (Ne : k1 <> k2).
  { intros ->. rewrite E, map_app in N. cbn [map used] in N. apply NoDup_remove_2 in N. apply N. apply in_or_app. right.
    rewrite map_app. apply in_or_app. right. left. reflexivity. }
  split; intros H.
  - destruct (C k1 k2 H _ H2 eq_refl (A _ H1) Ne) as [n Hs]. pose proof (T _ _ Hs H1 eq_refl). discriminate.
  - destruct (C k2 k1 H _ H1 eq_refl (A _ H2) (fun X => Ne (eq_sym X))) as [n Hs]. pose proof (T _ _ Hs H2 eq_refl). discriminate.
Qed.
Print Assumptions C94_independent.

(** What is drawn. Uniform within 1/sqrt of the number of inputs (1 if there are none), for the weight and the bias. *)
Theorem C94_linear i o b cx k : snd (make_linear i o b cx k) = Ok (linear_of i o b cx k).
Proof. apply linear_run. Qed.
Print Assumptions C94_linear.

Theorem C94_mlp i o w d b fb cx k :
  snd (make_mlp i o w d b fb cx k) =
  Ok (map (fun j => linear_of (mlp_in i w j) (mlp_out o w d j) (mlp_bias b fb d j) cx (Child k (d + 1) j)) (seq 0 (d + 1))).
Proof. apply (mlp_run i o w d b fb cx k). Qed.
Print Assumptions C94_mlp.

Theorem C94_attention h q kk v o qk vo b1 b2 b3 b4 cx k :
  snd (make_mha h q kk v o qk vo b1 b2 b3 b4 cx k) =
  Ok {| p_query := linear_of q (h * qk) b1 cx (Child k 4 0); p_key := linear_of kk (h * qk) b2 cx (Child k 4 1);
        p_value := linear_of v (h * vo) b3 cx (Child k 4 2); p_output := linear_of (h * vo) o b4 cx (Child k 4 3) |}.
Proof.
  unfold make_mha. match goal with |- snd (andthen (split k _) ?f) = _ => destruct (split_ok k 4 f) as [_ ->] end.
  cbv beta. cbn [seq map four]. do 4 rewrite (proj2 (andthen_ok _ _ _ (proj1 (linear_run _ _ _ _ _)))). reflexivity.
Qed.
Print Assumptions C94_attention.

(** Recurrent cells: uniform within 1/sqrt of the hidden size, which must not be 0. *)
Theorem C94_recurrent i h b cx k :
  snd (make_gru i h b cx k) =
    (if Nat.eqb h 0 then Err ZeroDivisionError else
     Ok {| g_ih := drawn (Child k 4 0) [3 * h; i] cx h; g_hh := drawn (Child k 4 1) [3 * h; h] cx h;
           g_bias := if b then Some (drawn (Child k 4 2) [3 * h] cx h) else None;
           g_bias_n := if b then Some (drawn (Child k 4 3) [h] cx h) else None |}) /\
  snd (make_lstm i h b cx k) =
    (if Nat.eqb h 0 then Err ZeroDivisionError else
     Ok {| l_ih := drawn (Child k 3 0) [4 * h; i] cx h; l_hh := drawn (Child k 3 1) [4 * h; h] cx h;
           l_bias := if b then Some (drawn (Child k 3 2) [4 * h] cx h) else None |}).
Proof.
  split.
  - unfold make_gru. match goal with |- snd (andthen (split k _) ?f) = _ => destruct (split_ok k 4 f) as [_ ->] end.
    cbv beta. cbn [seq map four]. destruct (Nat.eqb h 0); [reflexivity|].
    do 2 rewrite (proj2 (andthen_ok _ _ _ (init_value _ _ _ _))).
    do 2 rewrite (proj2 (andthen_ok _ _ _ (when_value b _ _ (init_value _ _ _ _)))). reflexivity.
  - unfold make_lstm. match goal with |- snd (andthen (split k _) ?f) = _ => destruct (split_ok k 3 f) as [_ ->] end.
    cbv beta. cbn [seq map three]. destruct (Nat.eqb h 0); [reflexivity|].
    do 2 rewrite (proj2 (andthen_ok _ _ _ (init_value _ _ _ _))).
    rewrite (proj2 (andthen_ok _ _ _ (when_value b _ _ (init_value _ _ _ _)))). reflexivity.
Qed.
Print Assumptions C94_recurrent.

(** Convolutions: uniform within 1/sqrt of the inputs of one output entry, which must not be 0. *)
Theorem C94_conv i o g ker b cx k :
  let fan := i / g * fold_right Nat.mul 1 ker in
  let params := pair_of (Child k 2 0) (Child k 2 1) (o :: i / g :: ker) (o :: repeat 1 (length ker)) b cx fan in
  snd (make_conv i o g ker b cx k) =
    (if Nat.eqb g 0 then Err ZeroDivisionError else if negb (Nat.eqb (i mod g) 0) then Err ValueError
     else if Nat.eqb fan 0 then Err ZeroDivisionError else Ok params) /\
  snd (make_conv_transpose i o g ker b cx k) =
    (if Nat.eqb g 0 then Err ZeroDivisionError else if Nat.eqb fan 0 then Err ZeroDivisionError else Ok params).
Proof.
  cbv zeta. change (fold_right Nat.mul 1 ker) with (prod ker). assert (R : repeat 1 (length ker) = map (fun _ => 1) ker) by (induction ker; cbn; congruence). rewrite R.
  split.
  - unfold make_conv. destruct (Nat.eqb g 0); [reflexivity|]. destruct (negb _); [reflexivity|].
    match goal with |- snd (andthen (split k _) ?f) = _ => destruct (split_ok k 2 f) as [_ ->] end.
    cbv beta. cbn [seq map two]. rewrite conv_run. destruct (Nat.eqb (i / g * prod ker) 0); reflexivity.
  - unfold make_conv_transpose.
    match goal with |- snd (andthen (split k _) ?f) = _ => destruct (split_ok k 2 f) as [_ ->] end.
    cbv beta. cbn [seq map two]. destruct (Nat.eqb g 0); [reflexivity|]. rewrite conv_run.
    destruct (Nat.eqb (i / g * prod ker) 0); reflexivity.
Qed.
Print Assumptions C94_conv.

Theorem C94_normal n s r c sh k :
  snd (make_embedding n s k) = Ok (k, Normal, [n; s]) /\
  snd (make_spectral (r :: c :: sh) k) =
    (if Nat.eqb r 0 then Err ZeroDivisionError
     else Ok ((Child k 2 0, Normal, [r]), (Child k 2 1, Normal, [fold_right Nat.mul 1 (c :: sh)]))) /\
  snd (make_spectral [r] k) = Err ValueError /\ snd (make_spectral [] k) = Err ValueError.
Proof. repeat split. unfold make_spectral. destruct (Nat.eqb r 0); reflexivity. Qed.
Print Assumptions C94_normal.

(** Not vacuous: an MLP with one hidden layer draws four arrays, with four keys. *)
Example C94_mlp_example k :
  fst (make_mlp 2 3 4 1 true true false k) =
  [Split k 2; Split (Child k 2 0) 2; Draw (Child (Child k 2 0) 2 0) (Uniform 2) [4; 2]; Draw (Child (Child k 2 0) 2 1) (Uniform 2) [4];
   Split (Child k 2 1) 2; Draw (Child (Child k 2 1) 2 0) (Uniform 4) [3; 4]; Draw (Child (Child k 2 1) 2 1) (Uniform 4) [3]].
Proof. reflexivity. Qed.
(** Not vacuous: nested sequences of dropouts. *)
Example C94_call_example k :
  fst (call (Sequential [Dropout true [5]; Ignores; Sequential [Dropout true [7]]; Attention 2 true [1]]) (Some k)) =
  [Split k 4; Draw (Child k 4 0) Bernoulli [5]; Split (Child k 4 2) 1; Draw (Child (Child k 4 2) 1 0) Bernoulli [7];
   Split (Child k 4 3) 2; Draw (Child (Child k 4 3) 2 0) Bernoulli [1]; Draw (Child (Child k 4 3) 2 1) Bernoulli [1]].
Proof. reflexivity. Qed.
(** Using one key for two draws, or drawing with a key that is also split, is not disciplined. *)
Example C94_twice_example k : ~ disciplined k [Draw k Normal [1]; Draw k Normal [2]] /\ ~ disciplined k [Split k 2; Draw k Normal [1]].
Proof. split; intros [H _]; inversion H as [|? ? NI _]; subst; apply NI; left; reflexivity. Qed.
(** A key that nobody gave. *)
Example C94_foreign_example : ~ disciplined (Root 0) [Draw (Root 1) Normal [1]].
Proof. intros [_ H]. destruct (H [] _ _ eq_refl) as [X|(k' & n & i & X & _)]; discriminate. Qed.
