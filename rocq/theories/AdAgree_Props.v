(** C120: forward and reverse mode agree through the filters. *)
From Coq Require Import ZArith.
From Verif Require Import Filters_Proofs Tree_Rel Prim_Spec Prim_Proofs Ad_Model Ad_Props.
Local Open Scope nat_scope.
Local Open Scope list_scope.

Section Agree.
  Context {L : Type}.
  Variables is_arr inexact : L -> bool.
  Local Notation T := (tree L).
  Local Notation D := (tree (dual L)).
  (** Inner products of arrays, in some ring. *)
  Variable K : Type.
  Variables (zero : K) (add : K -> K -> K).
  Hypothesis add_0_l : forall a, add zero a = a.
  Hypothesis add_0_r : forall a, add a zero = a.
  Hypothesis add_assoc : forall a b c, add a (add b c) = add (add a b) c.
  Variable ip : L -> L -> K.

  (** Cotangents applied to tangents; [None] is a zero. *)
  Definition leaf_dot (a b : T) : K := match a, b with Leaf x, Leaf y => ip x y | _, _ => zero end.
  Fixpoint list_dot (l m : list T) : K := match l, m with a :: l, b :: m => add (leaf_dot a b) (list_dot l m) | _, _ => zero end.
  Fixpoint tree_dot (a b : T) : K :=
    match a, b with
    | Leaf x, Leaf y => ip x y
    | Node _ cs, Node _ ds => (fix go (l m : list T) : K := match l, m with c :: l, d :: m => add (tree_dot c d) (go l m) | _, _ => zero end) cs ds
    | _, _ => zero
    end.
  Fixpoint dots (l m : list T) : K := match l, m with c :: l, d :: m => add (tree_dot c d) (dots l m) | _, _ => zero end.
  Lemma tree_dot_node k k' cs ds : tree_dot (Node k cs) (Node k' ds) = dots cs ds.
  Proof using. cbn [tree_dot]. revert ds. induction cs as [|c cs IH]; intros [|d ds]; reflexivity. Qed.
  Lemma list_dot_app l m : forall l' m', length l = length l' -> list_dot (l ++ m) (l' ++ m') = add (list_dot l l') (list_dot m m').
  Proof using add_0_l add_assoc.
    induction l as [|a l IH]; intros [|b l'] m' H; try discriminate; cbn [app list_dot]; [rewrite add_0_l; reflexivity|]. rewrite IH by (injection H; auto). apply add_assoc.
  Qed.

  (** The tangents of the inexact-array outputs. *)
  Definition tangent_of (d : dual L) : list T := match d with Tr a b => if inexact a then [Leaf b] else [] | Con a => if inexact a then [TNone] else [] end.
  Fixpoint out_tangents (o : D) : list T := match o with Leaf d => tangent_of d | TNone => [] | Node _ cs => concat (map out_tangents cs) end.

  (** The program run on tracers computes the program. *)
  Definition runs (fd : D -> res D) (f : T -> res T) : Prop := forall i, f (prim i) = rmap prim (fd i).
  (** Only inexact arrays are traced. *)
  Definition traces_inexact (o : D) : Prop := forall a b, In (Leaf (Tr a b)) (leaves no_leaf o) -> inexact a = true.
  Definition leaf_or_none (t : T) : Prop := is_Leaf t \/ t = TNone.

  (** JAX's [vjp] transposes the derivative that [jvp] computes: what [pull] makes of cotangents [cts], applied to tangents, is [cts] applied to the tangents of the outputs. *)
  Definition transposes {X} (VJP : (list T -> res (list T * X)) -> list T -> res (list T * (list T -> res (list T)) * X)) (fd : D -> res D) (f : T -> res T) (primals : T) : Prop :=
    forall F os pull x, restricts inexact (fun y => o <- f y ;; Ok (wrt inexact o)) primals (fun ws => rmap fst (F ws)) ->
      VJP F (wrt inexact primals) = Ok (os, pull, x) ->
      forall cts cs, length cts = length os -> pull cts = Ok cs -> forall ts tangents i out, laid_out inexact primals ts tangents -> lifts primals tangents i -> fd i = Ok out ->
        list_dot cs ts = list_dot cts (out_tangents out).

  Lemma fills_dot :
    (forall x cs y, fills inexact (fun _ => TNone) x cs y -> forall ts z, fills inexact (fun _ => TNone) x ts z -> length cs = length ts /\ (Forall leaf_or_none ts -> tree_dot y z = list_dot cs ts)) /\
    (forall xs cs ys, fills_list inexact (fun _ => TNone) xs cs ys -> forall ts zs, fills_list inexact (fun _ => TNone) xs ts zs -> length cs = length ts /\ (Forall leaf_or_none ts -> dots ys zs = list_dot cs ts)).
  Proof using add_0_l add_0_r add_assoc.
    assert (R : forall v w, leaf_or_none w -> tree_dot v w = leaf_dot v w).
    { intros v w [[b ->] | ->]; destruct v; reflexivity. }
    apply fills_mut.
    - intros a v Hg ts z H. inversion H; subst; [|congruence]. split; [reflexivity|]. intros HF. inversion HF; subst. cbn [list_dot]. rewrite R, add_0_r by assumption. reflexivity.
    - intros a Hg ts z H. inversion H; subst; [congruence|]. split; reflexivity.
    - intros ts z H. inversion H; subst. split; reflexivity.
    - intros k cs vs ds _ IH ts z H. inversion H; subst. rewrite tree_dot_node. auto.
    - intros ts zs H. inversion H; subst. split; reflexivity.
    - intros c cs v vs d ds _ IH1 _ IH2 ts zs H. inversion H; subst. destruct (IH1 _ _ ltac:(eassumption)) as [L1 E1]. destruct (IH2 _ _ ltac:(eassumption)) as [L2 E2]. split; [rewrite !app_length, L1, L2; reflexivity|].
      intros HF. apply Forall_app in HF as [HF1 HF2]. cbn [dots]. rewrite E1, E2, list_dot_app by assumption. reflexivity.
  Qed.
  Lemma fills_lifts :
    (forall x ts z, fills inexact (fun _ => TNone) x ts z -> Forall leaf_or_none ts -> exists i, lifts x z i /\ traces_inexact i) /\
    (forall xs ts zs, fills_list inexact (fun _ => TNone) xs ts zs -> Forall leaf_or_none ts -> exists is, lifts_list xs zs is /\ Forall traces_inexact is).
  Proof using.
    apply fills_mut.
    - intros a v Hg HF. inversion HF as [|? ? H _]; subst. destruct H as [[b ->] | ->]; eexists; (split; [constructor|]); intros a' b' [E|[]]; congruence.
    - intros a Hg _. eexists. split; [constructor|]. intros a' b' [E|[]]. discriminate.
    - intros _. exists TNone. split; [constructor|]. intros a b [].
    - intros k cs vs ds _ IH HF. destruct (IH HF) as (is & H1 & H2). exists (Node k is). split; [constructor; exact H1|]. intros a b Hin. cbn [leaves no_leaf] in Hin.
      apply in_concat in Hin as (l & Hl & Hin). apply in_map_iff in Hl as (i & <- & Hi). rewrite Forall_forall in H2. exact (H2 i Hi a b Hin).
    - intros _. exists []. split; constructor.
    - intros c cs v vs d ds _ IH1 _ IH2 HF. apply Forall_app in HF as [HF1 HF2]. destruct (IH1 HF1) as (i & H1 & H2). destruct (IH2 HF2) as (is & H3 & H4). exists (i :: is). split; constructor; assumption.
  Qed.
  Lemma lifts_prim :
    (forall (p t : T) (z : D), lifts p t z -> prim z = p) /\ (forall (ps ts : list T) (zs : list D), lifts_list ps ts zs -> map prim zs = ps).
  Proof using.
    apply lifts_mut; intros; try reflexivity.
    - change (prim (Node k es)) with (Node k (map prim es)). rewrite H0. reflexivity.
    - cbn [map]. rewrite H0, H2. reflexivity.
  Qed.
  Lemma traces_node k cs : traces_inexact (Node k cs) -> Forall traces_inexact cs.
  Proof using.
    intros H. apply Forall_forall. intros c Hc a b Hin. apply (H a b). cbn [leaves no_leaf]. apply in_concat. exists (leaves no_leaf c). split; [apply in_map; exact Hc|exact Hin].
  Qed.
  (** Cotangents laid out in the output, against the output's tangents. *)
  Lemma out_dot (o : D) : traces_inexact o -> forall cts ct, fills inexact (fun _ => TNone) (prim o) cts ct -> Forall is_Leaf cts ->
    length cts = length (out_tangents o) /\ tree_dot ct (tang o) = list_dot cts (out_tangents o).
  Proof using add_0_l add_0_r add_assoc.
    induction o as [[a|a b]| |k cs IH] using tree_ind'; intros HT cts ct H HF.
    - change (prim (Leaf (Con a))) with (Leaf a) in H. cbn [out_tangents tangent_of]. inversion H; subst; rewrite H1.
      + split; [reflexivity|]. inversion HF as [|? ? [c ->] _]; subst. cbn. rewrite add_0_l. reflexivity.
      + split; reflexivity.
    - change (prim (Leaf (Tr a b))) with (Leaf a) in H. cbn [out_tangents tangent_of]. inversion H; subst; rewrite H1.
      + split; [reflexivity|]. inversion HF as [|? ? [c ->] _]; subst. cbn. rewrite add_0_r. reflexivity.
      + specialize (HT a b (or_introl eq_refl)). congruence.
    - inversion H; subst. split; reflexivity.
    - apply traces_node in HT. change (prim (Node k cs)) with (Node k (map prim cs)) in H. change (tang (Node k cs)) with (Node k (map tang cs)). cbn [out_tangents]. inversion H as [| | |? ? ? ds Hl]; subst. rewrite tree_dot_node. clear H.
      revert cts ds Hl HF. induction IH as [|c cs Hc _ IHc]; intros cts ds Hl HF; cbn [map] in Hl |- *; inversion Hl; subst; [split; reflexivity|].
      inversion HT; subst. apply Forall_app in HF as [HF1 HF2]. destruct (Hc ltac:(assumption) _ _ ltac:(eassumption) HF1) as [L1 E1]. destruct (IHc ltac:(assumption) _ _ ltac:(eassumption) HF2) as [L2 E2].
      cbn [concat dots]. rewrite !app_length, L1, L2. split; [reflexivity|]. rewrite list_dot_app by exact L1. rewrite E1, E2. reflexivity.
  Qed.
End Agree.

(** The pullback of [filter_vjp] is the transpose of the tangent map of [filter_jvp], at the inexact-array leaves: with [None] counted as zero, the returned cotangents applied to any tangents are the given
    cotangents applied to the returned tangents. Both return the same primal output. Tangents may be [None] at inexact arrays too. *)
Theorem C120_transpose : forall L (is_arr inexact : L -> bool) K (zero : K) add, (forall a, add zero a = a) -> (forall a, add a zero = a) -> (forall a b c, add a (add b c) = add (add a b) c) ->
  forall ip compat VJP fd f primals, vjp_law VJP -> transposes inexact K zero add ip VJP fd f primals -> runs fd f ->
  (forall i out, traces_inexact inexact i -> fd i = Ok out -> traces_inexact inexact out) ->
  forall o pull aux, filter_vjp inexact VJP f primals false = Ok (o, pull, aux) ->
  forall ts tangents, laid_out inexact primals ts tangents -> Forall leaf_or_none ts -> (forall a b, compat (Leaf a) (Leaf b) = true) ->
  exists to, filter_jvp is_arr compat fd primals tangents = Ok (o, to) /\
    forall cts ct g, laid_out inexact o cts ct -> Forall is_Leaf cts -> pull ct = Ok g ->
      tree_dot K zero add ip g tangents = tree_dot K zero add ip ct to.
Proof.
  intros L is_arr inexact K zero add A0 A1 A2 ip compat VJP fd f primals HL HT HR HI o pull aux HV ts tangents Hts HF HC.
  destruct (proj1 (fills_lifts inexact) _ _ _ Hts HF) as (i & Hi & Hti). pose proof (proj1 lifts_prim _ _ _ Hi) as Hp.
  destruct (C55_vjp inexact VJP f primals false HL) as (F & HRs & HM). destruct (VJP F (wrt inexact primals)) as [[[os pl] x]|e] eqn:EV; [|congruence].
  destruct HM as (out & o' & aux' & pull' & Hf & Hret & Hos & Hv & Hpull & _). cbn in Hret. injection Hret as <- <-. rewrite HV in Hv. injection Hv as -> -> ->.
  pose proof (HR i) as Hr. rewrite Hp, Hf in Hr. destruct (fd i) as [od|e] eqn:Efd; [|discriminate]. cbn in Hr. injection Hr as ->.
  exists (tang od). split.
  - rewrite (jvp_args is_arr compat fd primals tangents i Hi) by (intros; apply HC). rewrite Efd. reflexivity.
  - intros cts ct g Hct HcF Hg. specialize (Hpull cts ct Hct HcF). destruct (out_dot inexact K zero add A0 A1 A2 ip od (HI i od Hti Efd) cts ct Hct HcF) as [Hlen Hd]. rewrite Hd.
    destruct (pl cts) as [cs|e] eqn:Ep; [|congruence]. destruct Hpull as (r & Hr & Hlo). rewrite Hg in Hr. injection Hr as <-.
    destruct (proj1 (fills_dot inexact K zero add A0 A1 A2 ip) _ _ _ Hlo ts tangents Hts) as [_ E]. rewrite (E HF).
    eapply HT; [exact HRs|exact EV| |exact Ep|exact Hts|exact Hi|exact Efd].
    rewrite Hos. pose proof (proj1 (fills_count _ _) _ _ _ Hct) as HN. exact HN.
Qed.
Print Assumptions C120_transpose.

(** [jax.value_and_grad] runs [jax.vjp] and pulls back a one (of the dtype of the value); the value must be a number. [F2] is [F1] with a list of outputs. *)
Definition grad_is_pull {L X} (inexact : L -> bool) (one : L -> L) (VG : bool -> (list (tree L) -> res (tree L)) -> list (tree L) -> res (tree L * list (tree L)))
    (VJP : (list (tree L) -> res (list (tree L) * X)) -> list (tree L) -> res (list (tree L) * (list (tree L) -> res (list (tree L))) * X)) : Prop :=
  forall F1 F2 ws v gs, (forall ws', length ws' = length ws -> Forall is_Leaf ws' -> rmap fst (F2 ws') = (o <- F1 ws' ;; Ok (wrt inexact o))) ->
    VG false F1 ws = Ok (v, gs) ->
    F1 ws = Ok v /\ length gs = length ws /\ exists a pull x, v = Leaf a /\ inexact a = true /\ VJP F2 ws = Ok ([Leaf a], pull, x) /\ pull [Leaf (one a)] = Ok gs.

(** [filter_value_and_grad] is the pullback of [filter_vjp] at one. *)
Theorem C120_grad : forall L (inexact : L -> bool) one VG VJP, grad_is_pull inexact one VG VJP -> (forall F ws v gs, VG false F ws = Ok (v, gs) -> length gs = length ws) -> vjp_law VJP ->
  forall fn x args rest v g, filter_value_and_grad inexact VG false fn (x :: args) rest = Ok (v, g) ->
  exists a pull, v = Leaf a /\ inexact a = true /\ filter_vjp inexact VJP (fun y => fn y (Node 0 [Node 0 args; rest])) x false = Ok (v, pull, TNone) /\ pull (Leaf (one a)) = Ok g.
Proof.
  intros L inexact one VG VJP HG HLn HL fn x args rest v g H. set (f := fun y => fn y (Node 0 [Node 0 args; rest])).
  destruct (C55_value_and_grad inexact VG false fn x args rest HLn) as (F1 & HR1 & HS1 & HE1 & HO1). fold f in HR1.
  destruct (C55_vjp inexact VJP f x false HL) as (F2 & HR2 & HM).
  destruct (VG false F1 (wrt inexact x)) as [[v' gs]|e] eqn:EV; [|rewrite (HE1 e eq_refl) in H; discriminate].
  destruct (HO1 v' gs eq_refl) as (g' & Hg' & E). rewrite H in E. injection E as <- <-.
  assert (HRel : forall ws', length ws' = length (wrt inexact x) -> Forall is_Leaf ws' -> rmap fst (F2 ws') = (o <- F1 ws' ;; Ok (wrt inexact o))).
  { intros ws' Hl Hw. destruct (HR1 ws' Hl Hw) as (y1 & Hy1 & ->). destruct (HR2 ws' Hl Hw) as (y2 & Hy2 & E2). rewrite E2.
    rewrite (proj1 (fills_fun inexact Leaf) _ _ _ Hy1 y2 Hy2). reflexivity. }
  destruct (HG F1 F2 (wrt inexact x) v gs HRel EV) as (HF & _ & a & pull & xx & -> & Ha & EJ & Hp). rewrite EJ in HM.
  destruct HM as (out & o & aux & pull' & Hf & Hret & Hos & Hv & Hpull & _). cbn in Hret. injection Hret as <- <-.
  assert (HfL : f x = Ok (Leaf a)) by (unfold f; rewrite <- HS1; exact HF). rewrite Hf in HfL. injection HfL as ->.
  exists a, pull'. split; [reflexivity|]. split; [exact Ha|]. split; [exact Hv|]. specialize (Hpull [Leaf (one a)] (Leaf (one a)) (fi_dyn _ _ _ _ Ha)). rewrite Hp in Hpull.
  destruct Hpull as (r & Hr & Hlo); [repeat constructor; eexists; reflexivity|]. rewrite Hr. f_equal. exact (proj1 (fills_fun inexact (fun _ => TNone)) _ _ _ Hlo g Hg').
Qed.
Print Assumptions C120_grad.

(** The derivative along tangents that [filter_jvp] returns is the gradient applied to the tangents. *)
Theorem C120_directional : forall L (is_arr inexact : L -> bool) K (zero : K) add, (forall a, add zero a = a) -> (forall a, add a zero = a) -> (forall a b c, add a (add b c) = add (add a b) c) ->
  forall ip compat one VG VJP, grad_is_pull (X := tree unit * tree L * tree L) inexact one VG VJP -> (forall F ws v gs, VG false F ws = Ok (v, gs) -> length gs = length ws) -> vjp_law VJP ->
  forall fn x args rest fd, let f := fun y => fn y (Node 0 [Node 0 args; rest]) in
  transposes inexact K zero add ip VJP fd f x -> runs fd f -> (forall i out, traces_inexact inexact i -> fd i = Ok out -> traces_inexact inexact out) ->
  forall v g, filter_value_and_grad inexact VG false fn (x :: args) rest = Ok (v, g) ->
  forall ts tangents, laid_out inexact x ts tangents -> Forall leaf_or_none ts -> (forall a b, compat (Leaf a) (Leaf b) = true) ->
  exists a to, v = Leaf a /\ filter_jvp is_arr compat fd x tangents = Ok (v, to) /\ tree_dot K zero add ip g tangents = tree_dot K zero add ip (Leaf (one a)) to.
Proof.
  intros L is_arr inexact K zero add A0 A1 A2 ip compat one VG VJP HG HLn HL fn x args rest fd f HT HR HI v g H ts tangents Hts HF HC.
  destruct (C120_grad L inexact one VG VJP HG HLn HL fn x args rest v g H) as (a & pull & -> & Ha & Hv & Hp).
  destruct (C120_transpose L is_arr inexact K zero add A0 A1 A2 ip compat VJP fd f x HL HT HR HI (Leaf a) pull TNone Hv ts tangents Hts HF HC) as (to & Hj & HD).
  exists a, to. split; [reflexivity|]. split; [exact Hj|]. apply (HD [Leaf (one a)]); [apply fi_dyn; exact Ha|repeat constructor; eexists; reflexivity|exact Hp].
Qed.
Print Assumptions C120_directional.

(** [filter_jacfwd] and [filter_jacrev] agree wherever [jax.jacfwd] and [jax.jacrev] do, also in what they reject. *)
Theorem C120_jacobians : forall L (is_arr inexact : L -> bool) JAC (fn : tree L -> res (tree L)) has_aux x,
  (forall F, JAC true F (wrt inexact x) = JAC false F (wrt inexact x)) -> filter_jac is_arr inexact JAC true fn has_aux x = filter_jac is_arr inexact JAC false fn has_aux x.
Proof.
  intros L is_arr inexact JAC fn has_aux x H. unfold filter_jac. rewrite partition_pred. cbn [bind]. rewrite dynp_leaves. fold (wrt inexact x). rewrite H. reflexivity.
Qed.
Print Assumptions C120_jacobians.

(** ** Numbers and strings; [lambda x, y, name: (x * y, y, name)] and its derivative. *)
Local Open Scope Z_scope.
Inductive val := Num (z : Z) | Txt.
Definition num (v : val) : bool := match v with Num _ => true | Txt => false end.
Definition pz (d : dual val) : Z := match d with Con (Num z) | Tr (Num z) _ => z | _ => 0 end.
Definition tz (d : dual val) : Z := match d with Tr _ (Num z) => z | _ => 0 end.
Definition traced (d : dual val) : bool := match d with Tr _ _ => true | _ => false end.
Definition dnum (d : dual val) : bool := match d with Con a | Tr a _ => num a end.
Definition dmul (a b : dual val) : dual val := if traced a || traced b then Tr (Num (pz a * pz b)) (Num (tz a * pz b + pz a * tz b)) else Con (Num (pz a * pz b)).
Definition ex_fd (i : tree (dual val)) : res (tree (dual val)) :=
  match i with
  | Node 0 [Leaf a; Leaf b; Leaf c] => if dnum a && dnum b then Ok (Node 0 [Leaf (dmul a b); Leaf b; Leaf c]) else Err TypeError
  | _ => Err TypeError
  end.
Definition ex_f (t : tree val) : res (tree val) :=
  match t with Node 0 [Leaf (Num a); Leaf (Num b); Leaf c] => Ok (Node 0 [Leaf (Num (a * b)); Leaf (Num b); Leaf c]) | _ => Err TypeError end.
Definition ex_VJP2 {X} (F : list (tree val) -> res (list (tree val) * X)) (ws : list (tree val)) : res (list (tree val) * (list (tree val) -> res (list (tree val))) * X) :=
  '(os, x) <- F ws ;;
  Ok (os, fun cts => match ws, cts with
          | [Leaf (Num a); Leaf (Num b)], [Leaf (Num c); Leaf (Num d)] => Ok [Leaf (Num (c * b)); Leaf (Num (c * a + d))]
          | _, _ => Err TypeError end, x).
Definition zip2 (a b : val) : Z := match a, b with Num x, Num y => x * y | _, _ => 0 end.
Definition ex_in : tree val := Node 0 [Leaf (Num 5); Leaf (Num 7); Leaf Txt].
Example C120_ex_runs : runs ex_fd ex_f.
Proof.
  intros i. destruct i as [[a|a b]| |[|k] cs]; try reflexivity. destruct cs as [|x [|y [|z [|w cs]]]]; try reflexivity.
  - destruct x as [[[]|[]]| |]; reflexivity.
  - destruct x as [[[]|[]]| |]; try reflexivity; destruct y as [[[]|[]]| |]; reflexivity.
  - destruct x as [[[]|[]]| |]; try reflexivity; destruct y as [[[]|[]]| |]; try reflexivity; destruct z as [[[]|[]]| |]; reflexivity.
  - destruct x as [[[]|[]]| |]; try reflexivity; destruct y as [[[]|[]]| |]; try reflexivity; destruct z as [[[]|[]]| |]; reflexivity.
Qed.
Ltac leaf_pair := repeat match goal with H : lifts (Leaf _) _ _ |- _ => inversion H; clear H; subst | H : lifts_list _ _ _ |- _ => inversion H; clear H; subst end.
Lemma ip_zero_ring : (forall a, 0 + a = a) /\ (forall a, a + 0 = a) /\ (forall a b c, a + (b + c) = a + b + c).
Proof. repeat split; intros; ring. Qed.
(** Tangents are numbers, as [jax.jvp] demands. *)
Definition num_tangents (t : tree val) : Prop := forall s, In s (leaves no_leaf t) -> exists z, s = Leaf (Num z).
Example C120_ex : exists o pull, filter_vjp num ex_VJP2 ex_f ex_in false = Ok (o, pull, TNone) /\ o = Node 0 [Leaf (Num 35); Leaf (Num 7); Leaf Txt] /\
  pull (Node 0 [Leaf (Num 2); Leaf (Num 3); TNone]) = Ok (Node 0 [Leaf (Num 14); Leaf (Num 13); TNone]) /\
  filter_jvp num (fun _ _ => true) ex_fd ex_in (Node 0 [Leaf (Num 10); Leaf (Num 100); TNone]) = Ok (o, Node 0 [Leaf (Num 570); Leaf (Num 100); TNone]) /\
  tree_dot Z 0 Z.add zip2 (Node 0 [Leaf (Num 14); Leaf (Num 13); TNone]) (Node 0 [Leaf (Num 10); Leaf (Num 100); TNone]) = 1440 /\
  tree_dot Z 0 Z.add zip2 (Node 0 [Leaf (Num 2); Leaf (Num 3); TNone]) (Node 0 [Leaf (Num 570); Leaf (Num 100); TNone]) = 1440.
Proof. eexists. eexists. split; [reflexivity|]. repeat split; reflexivity. Qed.
Example C120_ex_transposes : transposes num Z 0 Z.add zip2 (@ex_VJP2 (tree unit * tree val * tree val)) ex_fd ex_f ex_in.
Proof.
  intros F os pull x HR HV cts cs Hlen Hp ts tangents i out Hts Hi Ho. unfold ex_VJP2 in HV. destruct (F (wrt num ex_in)) as [[os' x']|e] eqn:EF; [|discriminate].
  injection HV as <- <- <-. cbn [wrt ex_in leaves no_leaf map concat app List.filter on_leaf num] in Hp.
  destruct cts as [|[[c|]| |] [|[[d|]| |] [|]]]; try discriminate. injection Hp as <-.
  inversion Hts as [| | |? ? ? ? H0]; subst. repeat match goal with H : fills_list _ _ _ _ _ |- _ => inversion H; clear H; subst | H : fills _ _ (Leaf _) _ _ |- _ => inversion H; clear H; subst end; try discriminate.
  inversion Hi; subst. leaf_pair; cbn [ex_fd dnum num andb] in Ho; injection Ho as <-;
    cbn [app list_dot leaf_dot zip2 out_tangents tangent_of num map concat dmul traced orb pz tz]; repeat match goal with b : val |- _ => destruct b end; cbn [leaf_dot zip2]; ring.
Qed.
Example C120_ex_law : forall X, vjp_law (@ex_VJP2 X).
Proof.
  intros X F ws os pull x H. unfold ex_VJP2 in H. destruct (F ws) as [[os' x']|]; [|discriminate]. injection H as <- <- <-. split; [reflexivity|].
  intros cts cs H. destruct ws as [|[[a|]| |] [|[[b|]| |] [|]]]; try discriminate. destruct cts as [|[[c|]| |] [|[[d|]| |] [|]]]; try discriminate. injection H as <-. reflexivity.
Qed.
(** An engine for which gradients are pullbacks at one: that of [lambda x: x * x] for a single number. *)
Definition sq_VJP {X} (F : list (tree val) -> res (list (tree val) * X)) (ws : list (tree val)) : res (list (tree val) * (list (tree val) -> res (list (tree val))) * X) :=
  '(os, x) <- F ws ;; Ok (os, fun cts => match ws, cts with [Leaf (Num a)], [Leaf (Num c)] => Ok [Leaf (Num (2 * a * c))] | _, _ => Err TypeError end, x).
Definition sq_VG (_ : bool) (F : list (tree val) -> res (tree val)) (ws : list (tree val)) : res (tree val * list (tree val)) :=
  v <- F ws ;; match v, ws with Leaf (Num _), [Leaf (Num a)] => Ok (v, [Leaf (Num (2 * a))]) | _, _ => Err TypeError end.
Example C120_ex_grad_law : grad_is_pull num (fun _ => Num 1) sq_VG (@sq_VJP (tree unit * tree val * tree val)).
Proof.
  intros F1 F2 ws v gs HR H. unfold sq_VG in H. destruct (F1 ws) as [[[n|]| |]|e] eqn:E1; try discriminate. cbn [bind] in H. destruct ws as [|[[a|]| |] [|]]; try discriminate. injection H as <- <-.
  split; [reflexivity|]. split; [reflexivity|]. pose proof (HR [Leaf (Num a)] eq_refl ltac:(repeat constructor; eexists; reflexivity)) as E. rewrite E1 in E. cbn in E. unfold sq_VJP.
  destruct (F2 [Leaf (Num a)]) as [[os x]|e]; [|discriminate]. cbn in E. injection E as ->. eexists. eexists. eexists. split; [reflexivity|]. split; [reflexivity|]. split; [reflexivity|]. transitivity (Ok [Leaf (Num (2 * a * 1))] : res (list (tree val))); [reflexivity|]. rewrite Z.mul_1_r. reflexivity.
Qed.
Definition sq (t rest : tree val) : res (tree val) := match t with Node 0 [Leaf (Num a); Leaf Txt] => Ok (Leaf (Num (a * a))) | _ => Err TypeError end.
Example C120_ex_grad : filter_value_and_grad num sq_VG false sq [Node 0 [Leaf (Num 3); Leaf Txt]] TNone = Ok (Leaf (Num 9), Node 0 [Leaf (Num 6); TNone]).
Proof. reflexivity. Qed.
