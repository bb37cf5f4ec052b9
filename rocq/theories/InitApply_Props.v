(** C123: init/apply functions of a model. *)
From Verif Require Import Filters_Proofs Filters_Props Tree_Rel Prim_Spec Prim_Proofs Leafwise Ad_Model Ad_Props Train_Model Train_Spec Train_Props InitApply_Model.

Section Props.
  Context {L St : Type}.
  Variable inexact : L -> bool.
  Notation T := (tree L).
  Variable VG : bool -> (list T -> res T) -> list T -> res (T * list T).
  Variable opt : list T -> St -> option (list T) -> res (list T * St).
  Variable add : T -> T -> res T.
  Variable kwargs : T.
  Hypothesis HVG : grad_law inexact VG.
  Hypothesis Hopt : opt_law opt.
  Hypothesis Hadd : add_law inexact add.
  Notation param := (is_param inexact).
  Local Notation make := (make_model inexact).

  Lemma make_ok call model : make call model = Ok (Ok (dynp inexact model), fun p x => m <- eqx_combine no_leaf [p; stap inexact model] ;; call m x).
  Proof. unfold make_model. rewrite partition_pred. reflexivity. Qed.
  Lemma combine_parts model : eqx_combine no_leaf [dynp inexact model; stap inexact model] = Ok model.
  Proof. apply (C01_partition_combine_identity L model _ _ (Leaf (SCall (on_leaf inexact)))). apply partition_pred. Qed.

  (** C123. [apply_fn] of the initial parameters is the model; all leaves of the parameters are inexact arrays. *)
  Theorem C123_apply : forall call model, exists params apply_fn, make call model = Ok (Ok params, apply_fn) /\
    (forall x, apply_fn params x = call model x) /\
    (forall t, In t (leaves no_leaf params) <-> In t (leaves no_leaf model) /\ exists a, t = Leaf a /\ inexact a = true).
  Proof.
    intros call model. rewrite make_ok. do 2 eexists. split; [reflexivity|]. split.
    - intros x. rewrite combine_parts. reflexivity.
    - intros t. rewrite dynp_leaves, filter_In. pose proof (leaves_are_Leaf model) as HL. rewrite Forall_forall in HL. split.
      + intros [Hi Ho]. split; [exact Hi|]. destruct (HL t Hi) as [a ->]. exists a. auto.
      + intros [Hi (a & -> & Ha)]. split; [exact Hi|exact Ha].
  Qed.

  Lemma map_dyn f model : (forall a, inexact a = true -> inexact (f a) = true) ->
    tree_map f (dynp inexact model) = dynp inexact (tree_map (fun a => if inexact a then f a else a) model) /\
    stap inexact (tree_map (fun a => if inexact a then f a else a) model) = stap inexact model.
  Proof using.
    intros Hf. unfold tree_map, dynp, stap. induction model as [a| |k cs IH] using tree_ind'.
    - cbn. destruct (inexact a) eqn:E; cbn; [rewrite (Hf a E)|rewrite E]; auto.
    - auto.
    - rewrite Forall_forall in IH. cbn [tmap no_leaf]. rewrite !map_map. split; f_equal; apply map_ext_in; intros c Hc; apply (IH c Hc).
  Qed.
  (** C123. Changing all parameters, as the example does, is changing the inexact arrays of the model and nothing else. *)
  Theorem C123_tree_map : forall call model f, (forall a, inexact a = true -> inexact (f a) = true) ->
    exists params apply_fn, make call model = Ok (Ok params, apply_fn) /\
      forall x, apply_fn (tree_map f params) x = call (tree_map (fun a => if inexact a then f a else a) model) x.
  Proof.
    intros call model f Hf. rewrite make_ok. do 2 eexists. split; [reflexivity|]. intros x. destruct (map_dyn f model Hf) as [E1 E2].
    rewrite E1. rewrite <- E2. rewrite combine_parts. reflexivity.
  Qed.

  (** Adding updates to the parameters. *)
  Lemma apply_dyn :
    (forall (y : T) us u, laid_out inexact y us u -> Forall is_Leaf us ->
       match apply_updates add y u with
       | Ok y' => tmap2 no_leaf add (dynp inexact y) u = Ok (dynp inexact y')
       | Err e => tmap2 no_leaf add (dynp inexact y) u = Err e
       end) /\
    (forall (cs : list T) us ts, fills_list inexact (fun _ => TNone) cs us ts -> Forall is_Leaf us ->
       match zipM (tmap2 is_none (apply_update add)) ts cs with
       | Ok ds => zipM (tmap2 no_leaf add) (map (dynp inexact) cs) ts = Ok (map (dynp inexact) ds)
       | Err e => zipM (tmap2 no_leaf add) (map (dynp inexact) cs) ts = Err e
       end).
  Proof using Hadd.
    unfold laid_out, apply_updates. apply fills_mut.
    - intros a v Ha Hw. inversion Hw as [|? ? (b & ->) _]; subst. unfold dynp. cbn. rewrite Ha. cbn.
      destruct (add (Leaf a) (Leaf b)) as [y|e] eqn:E; cbn; [|reflexivity].
      destruct (Hadd (Leaf a) (Leaf b) y) as (c & -> & Hc); [exists a; auto|exists b; reflexivity|exact E|]. cbn. rewrite Hc. reflexivity.
    - intros a Ha _. unfold dynp. cbn. rewrite Ha. cbn. rewrite ?Ha. reflexivity.
    - intros _. reflexivity.
    - intros k cs us ts _ IH Hw. specialize (IH Hw). change (dynp inexact (Node k cs)) with (Node k (map (dynp inexact) cs)).
      cbn [tmap2 is_none no_leaf]. rewrite Nat.eqb_refl. destruct (zipM (tmap2 is_none (apply_update add)) ts cs) as [ds|e]; cbn [bind rmap]; rewrite IH; reflexivity.
    - intros _. reflexivity.
    - intros c cs v vs d ds Hc IH1 Hcs IH2 Hw. apply Forall_app in Hw as [Hw1 Hw2]. specialize (IH1 Hw1). specialize (IH2 Hw2).
      cbn [map zipM]. destruct (tmap2 is_none (apply_update add) d c) as [y|e]; cbn [bind]; rewrite IH1; cbn [bind]; [|reflexivity].
      destruct (zipM (tmap2 is_none (apply_update add)) ds cs) as [ys|e]; cbn [bind]; rewrite IH2; reflexivity.
  Qed.

  (** C123. A library that trains the parameters trains the model: the same losses and states of the optimiser, the same exceptions, and parameters
      that are those of the trained model. *)
  Theorem C123_train : forall loss (g : bool) model params apply_fn, make loss model = Ok (Ok params, apply_fn) ->
    forall s data,
    match train inexact VG opt add kwargs loss (if g then Some inexact else None) model s data with
    | Ok (model', s', vs) => exists params', apply_train VG opt add kwargs apply_fn g params s data = Ok (params', s', vs) /\
        make loss model' = Ok (Ok params', apply_fn) /\ forall x, apply_fn params' x = loss model' x
    | Err e => apply_train VG opt add kwargs apply_fn g params s data = Err e
    end.
  Proof using HVG Hopt Hadd.
    intros loss g model params apply_fn HM s data. rewrite make_ok in HM. injection HM as <- <-.
    enough (G : forall data y ws s, fills inexact Leaf model ws y -> Forall param ws ->
      match train inexact VG opt add kwargs loss (if g then Some inexact else None) y s data with
      | Ok (y', s', vs) => apply_train VG opt add kwargs (fun p x => m <- eqx_combine no_leaf [p; stap inexact model] ;; loss m x) g (dynp inexact y) s data = Ok (dynp inexact y', s', vs) /\
          stap inexact y' = stap inexact model
      | Err e => apply_train VG opt add kwargs (fun p x => m <- eqx_combine no_leaf [p; stap inexact model] ;; loss m x) g (dynp inexact y) s data = Err e
      end).
    { specialize (G data model (wrt inexact model) s (fills_self inexact model) (wrt_param inexact model)).
      destruct (train _ _ _ _ _ _ _ _ _ _) as [[[y' s'] vs]|e]; [|exact G]. destruct G as [G1 G2]. exists (dynp inexact y'). split; [exact G1|].
      split; [rewrite make_ok, G2; reflexivity|]. intros x. pose proof (combine_parts y') as CP. rewrite G2 in CP.
      change ((m <- eqx_combine no_leaf [dynp inexact y'; stap inexact model] ;; loss m x) = loss y' x). rewrite CP. reflexivity. }
    clear s data. induction data as [|b data IH]; intros y ws s H Hw.
    - cbn [train apply_train]. split; [reflexivity|]. apply (proj1 (fills_parts inexact) _ _ _ H Hw).
    - cbn [train apply_train]. unfold make_step, apply_step. destruct (proj1 (fills_parts inexact) _ _ _ H Hw) as (E1 & E2 & E3).
      pose proof (grad_at inexact VG kwargs HVG loss model ws y false b H Hw) as A.
      assert (V : filter_value_and_grad inexact VG false loss (y :: b) kwargs =
        jax_value_and_grad VG false (fun p => m <- eqx_combine no_leaf [p; stap inexact model] ;; loss m (Node 0 [Node 0 b; kwargs])) (dynp inexact y)).
      { unfold filter_value_and_grad. rewrite partition_pred. cbn [bind]. rewrite E2. reflexivity. }
      rewrite V in *. clear V.
      destruct (VG false _ ws) as [[v gs]|e]; cbn [bind]; [|rewrite A; reflexivity].
      destruct A as (gt & G1 & G2 & EV). rewrite EV. cbn [bind].
      assert (P : params_of (if g then Some inexact else None) y = Ok (if g then Some (dynp inexact y) else None)).
      { destruct g; cbn [params_of]; [rewrite filter_dynp; reflexivity|reflexivity]. }
      rewrite P. cbn [bind].
      pose proof (update_at inexact opt Hopt y gs gt s (if g then Some (dynp inexact y) else None) G1 G2 ltac:(destruct g; [reflexivity|exact I])) as B.
      destruct (opt gs s _) as [[us s1]|e]; cbn [bind]; [|rewrite B; reflexivity].
      destruct B as (u & U1 & U2 & U3 & EU). rewrite EU. cbn [bind].
      pose proof (apply_at inexact add Hadd model ws y us u H Hw U1 U2) as C. pose proof (proj1 apply_dyn _ _ _ U1 U2) as D.
      destruct (adds add ws us) as [ws1|e].
      + destruct C as (y1 & Y1 & Y2 & EY). rewrite EY in D |- *. cbn [bind]. rewrite D. cbn [bind]. specialize (IH y1 ws1 s1 Y1 Y2).
        destruct (train _ _ _ _ _ _ _ y1 s1 data) as [[[y2 s2] vs]|e]; cbn [bind]; [|rewrite IH; reflexivity]. destruct IH as [I1 I2]. rewrite I1. cbn [bind]. auto.
      + rewrite C in D |- *. cbn [bind]. rewrite D. reflexivity.
  Qed.
End Props.
Print Assumptions C123_apply.
Print Assumptions C123_tree_map.
Print Assumptions C123_train.

(** ** Example: the model of [C102_ex]; its parameters doubled, and trained for two steps. *)
Example C123_ex :
  (exists apply_fn, make_model exinexact exloss (exmodel 5 2) = Ok (Ok (Node 3 [Leaf (Fl 5); TNone; Node 4 [TNone; TNone; Leaf (Fl 2)]]), apply_fn) /\
     apply_fn (tree_map (fun a => match a with Fl z => Fl (2 * z) | x => x end) (Node 3 [Leaf (Fl 5); TNone; Node 4 [TNone; TNone; Leaf (Fl 2)]]))
       (Node 0 [Node 0 [Leaf (Fl 3)]; Node 1 []]) = Ok (Leaf (Fl 34)) /\
     apply_train exVG exopt exadd (Node 1 []) apply_fn true (Node 3 [Leaf (Fl 5); TNone; Node 4 [TNone; TNone; Leaf (Fl 2)]]) 0 [[Leaf (Fl 1)]; [Leaf (Fl 2)]]
       = Ok (Node 3 [Leaf (Fl 2); TNone; Node 4 [TNone; TNone; Leaf (Fl 0)]], 2, [Leaf (Fl 7); Leaf (Fl 9)])).
Proof. eexists. split; [reflexivity|]. split; reflexivity. Qed.
