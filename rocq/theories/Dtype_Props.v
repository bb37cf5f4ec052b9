(** C116: the dtypes of layers. *)
From Coq Require Import Relations.
From Verif Require Import Dtype_Model.
Local Open Scope nat_scope.
Local Open Scope list_scope.

(** ** Promotion as documented by JAX: weak types beside the others. *)
Inductive step : ty -> ty -> Prop :=
| S_bool : step B WI
| S_wi_u : step WI U8 | S_wi_i : step WI I8
| S_u8 : step U8 U16 | S_u16 : step U16 U32 | S_u32 : step U32 U64
| S_i8 : step I8 I16 | S_i16 : step I16 I32 | S_i32 : step I32 I64
| S_u8i : step U8 I16 | S_u16i : step U16 I32 | S_u32i : step U32 I64
| S_u64 : step U64 WF | S_i64 : step I64 WF
| S_wf_b : step WF BF16 | S_wf_f : step WF F16 | S_wf_c : step WF WC
| S_bf16 : step BF16 F32 | S_f16 : step F16 F32 | S_f32 : step F32 F64
| S_wc : step WC C64 | S_f32c : step F32 C64 | S_f64c : step F64 C128 | S_c64 : step C64 C128.
Definition below : ty -> ty -> Prop := clos_refl_trans ty step.
Definition upper (l : list ty) (c : ty) : Prop := forall t, In t l -> below t c.
(** The least dtype above all of a list. *)
Definition lub (l : list ty) (c : ty) : Prop := upper l c /\ forall d, upper l d -> below c d.
Definition weak (t : ty) : bool := match t with WI | WF | WC => true | _ => false end.
Definition floating (t : ty) : Prop := t = BF16 \/ t = F16 \/ t = F32 \/ t = F64.
Definition inexact (t : ty) : Prop := floating t \/ t = C64 \/ t = C128.
Definition integral (t : ty) : Prop := weak t = false /\ ~ inexact t.
Definition default (x64 : bool) : ty := if x64 then F64 else F32.

(** ** Facts, by computation *)
Definition forall_ty (p : ty -> bool) : bool := forallb p all_ty.
Lemma forall_ty_ok p : forall_ty p = true -> forall t, p t = true.
Proof. intros H t. apply (proj1 (forallb_forall _ _) H). destruct t; cbn; tauto. Qed.
Lemma eqb_ok a b : ty_eqb a b = true <-> a = b.
Proof. unfold ty_eqb. destruct (ty_eq_dec a b); split; intros; congruence. Qed.
Definition join (a b : ty) : ty := match promote Standard a b with Ok c => c | Err _ => B end.
Definition is_ok {A} (r : res A) : bool := match r with Ok _ => true | Err _ => false end.
Lemma promote_join a b : promote Standard a b = Ok (join a b).
Proof.
  assert (H : is_ok (promote Standard a b) = true).
  { apply (forall_ty_ok (fun b => is_ok (promote Standard a b))). apply (forall_ty_ok (fun a => forall_ty (fun b => is_ok (promote Standard a b)))). vm_compute. reflexivity. }
  unfold join. destruct (promote Standard a b); [reflexivity|discriminate].
Qed.
Lemma leb_refl a : leb Standard a a = true.
Proof. apply (forall_ty_ok (fun a => leb Standard a a)). vm_compute. reflexivity. Qed.
Lemma leb_trans a b c : leb Standard a b = true -> leb Standard b c = true -> leb Standard a c = true.
Proof.
  intros H K. assert (G : implb (leb Standard a b && leb Standard b c) (leb Standard a c) = true).
  { apply (forall_ty_ok (fun c => implb (leb Standard a b && leb Standard b c) (leb Standard a c))).
    apply (forall_ty_ok (fun b => forall_ty (fun c => implb (leb Standard a b && leb Standard b c) (leb Standard a c)))).
    apply (forall_ty_ok (fun a => forall_ty (fun b => forall_ty (fun c => implb (leb Standard a b && leb Standard b c) (leb Standard a c))))). vm_compute. reflexivity. }
  rewrite H, K in G. exact G.
Qed.
Lemma below_leb a b : below a b <-> leb Standard a b = true.
Proof.
  split.
  - intros H. induction H as [a b H|a|a b c _ IH1 _ IH2]; [destruct H; reflexivity|apply leb_refl|eapply leb_trans; eauto].
  - unfold leb. generalize 12. intros n. revert a. induction n as [|n IH]; intros a H; cbn [reach] in H; apply orb_prop in H as [H|H];
      try (apply eqb_ok in H as ->; apply rt_refl); try discriminate.
    apply existsb_exists in H as (c & Hc & H). apply rt_trans with c; [|apply IH; exact H]. apply rt_step.
    destruct a; cbn in Hc; repeat (destruct Hc as [<-|Hc]; [constructor|]); contradiction.
Qed.
Lemma join_least a b c : leb Standard (join a b) c = leb Standard a c && leb Standard b c.
Proof.
  assert (G : eqb (leb Standard (join a b) c) (leb Standard a c && leb Standard b c) = true).
  { apply (forall_ty_ok (fun c => eqb (leb Standard (join a b) c) (leb Standard a c && leb Standard b c))).
    apply (forall_ty_ok (fun b => forall_ty (fun c => eqb (leb Standard (join a b) c) (leb Standard a c && leb Standard b c)))).
    apply (forall_ty_ok (fun a => forall_ty (fun b => forall_ty (fun c => eqb (leb Standard (join a b) c) (leb Standard a c && leb Standard b c))))). vm_compute. reflexivity. }
  apply eqb_prop in G. exact G.
Qed.
Lemma below_join a b c : below (join a b) c <-> below a c /\ below b c.
Proof. rewrite !below_leb, join_least, andb_true_iff. reflexivity. Qed.
Lemma below_refl a : below a a. Proof. apply rt_refl. Qed.
Lemma below_antisym a b : below a b -> below b a -> a = b.
Proof.
  rewrite !below_leb. intros H K. assert (G : implb (leb Standard a b && leb Standard b a) (ty_eqb a b) = true).
  { apply (forall_ty_ok (fun b => implb (leb Standard a b && leb Standard b a) (ty_eqb a b))).
    apply (forall_ty_ok (fun a => forall_ty (fun b => implb (leb Standard a b && leb Standard b a) (ty_eqb a b)))). vm_compute. reflexivity. }
  rewrite H, K in G. apply eqb_ok. exact G.
Qed.
Lemma lub_unique l c d : lub l c -> lub l d -> c = d.
Proof. intros [H1 H2] [K1 K2]. apply below_antisym; auto. Qed.
Lemma lub_one a : lub [a] a.
Proof. split; [intros t [<-|[]]; apply below_refl|]. intros d H. apply H. left. reflexivity. Qed.
Lemma lub_join l l' a b : lub l a -> lub l' b -> lub (l ++ l') (join a b).
Proof.
  intros [H1 H2] [K1 K2]. assert (J := proj1 (below_join a b (join a b)) (below_refl _)). destruct J as [J1 J2]. split.
  - intros t Ht. apply in_app_or in Ht as [Ht|Ht]; eapply rt_trans; [apply H1| |apply K1|]; eassumption.
  - intros d Hd. apply below_join. split; [apply H2|apply K2]; intros t Ht; apply Hd, in_or_app; auto.
Qed.
Lemma lub_same l l' c : lub l c -> (forall t, In t l <-> In t l') -> lub l' c.
Proof. intros [H1 H2] E. split; [intros t Ht; apply H1, E, Ht|]. intros d Hd. apply H2. intros t Ht. apply Hd, E, Ht. Qed.
(** A type above all of a list can be left out, and put in. *)
Lemma lub_drop t l c : lub (t :: l) c -> (exists u, In u l /\ below t u) -> lub l c.
Proof.
  intros [H1 H2] (u & Hu & Ht). split; [intros v Hv; apply H1; right; exact Hv|]. intros d Hd. apply H2.
  intros v [<-|Hv]; [eapply rt_trans; [exact Ht|apply Hd; exact Hu]|apply Hd; exact Hv].
Qed.
Ltac lubs := match goal with |- lub _ ?c => eapply lub_same; [repeat first [apply lub_join | apply lub_one]|intros ?t; cbn [In app]; tauto] end.

Lemma inexact_ok t : inexact t <-> inexactb t = true /\ weak t = false.
Proof. unfold inexact, floating. destruct t; cbn; split; intros H; try tauto; try (destruct H; discriminate); intuition discriminate. Qed.
Lemma join_inexact w x : inexact w -> inexact (join w x).
Proof.
  intros H. apply inexact_ok in H as [H1 H2]. apply inexact_ok.
  assert (G : implb (inexactb w && negb (weak w)) (inexactb (join w x) && negb (weak (join w x))) = true).
  { apply (forall_ty_ok (fun x => implb (inexactb w && negb (weak w)) (inexactb (join w x) && negb (weak (join w x))))).
    apply (forall_ty_ok (fun w => forall_ty (fun x => implb (inexactb w && negb (weak w)) (inexactb (join w x) && negb (weak (join w x)))))). vm_compute. reflexivity. }
  rewrite H1, H2 in G. cbn in G. apply andb_prop in G as [G1 G2]. split; [exact G1|]. destruct (weak (join w x)); [discriminate|reflexivity].
Qed.
Lemma inexact_dtype x64 t : inexact t -> dtype x64 t = t.
Proof. intros H. apply inexact_ok in H as [_ H]. destruct t; try reflexivity; discriminate. Qed.
Lemma inexact_to x64 t : inexact t -> to_inexact x64 t = t.
Proof. intros H. apply inexact_ok in H as [H _]. unfold to_inexact. rewrite H. reflexivity. Qed.
Lemma strong_dtype x64 t : weak t = false -> dtype x64 t = t.
Proof. destruct t; intros H; try reflexivity; discriminate. Qed.
Ltac byt := intros; match goal with |- below ?a ?b => apply below_leb; reflexivity end.
Lemma wi_below w : inexact w -> below WI w.
Proof. unfold inexact, floating. intuition subst; apply below_leb; reflexivity. Qed.
Lemma wf_below w : inexact w -> below WF w.
Proof. unfold inexact, floating. intuition subst; apply below_leb; reflexivity. Qed.
Lemma join_l a b : below a (join a b).
Proof. exact (proj1 (proj1 (below_join a b (join a b)) (below_refl (join a b)))). Qed.
Lemma join_comm a b : join a b = join b a.
Proof. apply (lub_unique [a; b]); lubs. Qed.
Lemma join_absorb a b : below b a -> join a b = a.
Proof. intros H. apply below_antisym; [apply below_join; split; [apply below_refl|exact H]|]. apply join_l. Qed.

Lemma bind_promote {A} a b (f : ty -> res A) : bind (promote Standard a b) f = f (join a b).
Proof. rewrite promote_join. reflexivity. Qed.
Lemma bind_bind {A C D} (x : res A) (f : A -> res C) (g : C -> res D) : bind (bind x f) g = bind x (fun a => bind (f a) g).
Proof. destruct x; reflexivity. Qed.
Lemma bind_Ok {A C} (a : A) (f : A -> res C) : bind (Ok a) f = f a.
Proof. reflexivity. Qed.
Ltac proms := repeat (first [rewrite bind_bind | rewrite bind_Ok | rewrite bind_promote]; cbv beta); rewrite ?promote_join.
Opaque join promote leb.
Ltac comp := vm_compute; reflexivity.
(** ** The theorems *)

(** C116. Promotion gives the least dtype above both, or the weak type; in strict mode nothing but weak types is promoted. *)
Definition kind (t : ty) : nat := match t with B => 9 | WF | BF16 | F16 | F32 | F64 => 1 | WC | C64 | C128 => 2 | _ => 0 end.
Theorem C116_promotion : forall a b,
  (exists c, promote Standard a b = Ok c /\ lub [a; b] c) /\
  promote Strict a b =
    (if ty_eqb a b then Ok a
     else if weak a && (kind a <=? kind b) && (kind b <? 9) then Ok b
     else if weak b && (kind b <=? kind a) && (kind a <? 9) then Ok a
     else Err ValueError).
Proof.
  intros a b. split.
  - exists (join a b). split; [apply promote_join|]. lubs.
  - destruct a, b; comp.
Qed.

(** C116. Layers made and used with one floating dtype return it, in both modes of promotion. *)
Theorem C116_kept : forall m x64 d, floating d ->
  (forall bias, linear m d bias d = Ok d) /\
  (forall biases, mlp m d biases d = Ok d) /\
  (forall bias, gru m d bias d d = Ok d) /\
  (forall bias, lstm m d bias d (d, d) = Ok (d, d)) /\
  (forall bias, conv m x64 d bias d = Ok d) /\
  (forall w b, layer_norm m x64 w b d = Ok d /\ rms_norm m x64 w b d = Ok d) /\
  (forall affine inference, batch_norm m x64 d affine inference d = Ok (d, d)) /\
  (forall p inference, p = WI \/ p = WF \/ p = d -> dropout m x64 p inference d = Ok d) /\
  prelu WF d = Ok d /\ prelu d d = Ok d /\ rope m x64 d d = Ok d /\
  (forall qb kb vb ob p inference masked, p = WI \/ p = WF \/ p = d -> attention m x64 d qb kb vb ob p inference masked d d d = Ok d) /\
  (forall n, power_iterations m n d (d, d) = Ok (d, d)) /\
  (forall n inference, spectral_norm m x64 d d n inference (d, d) d = Ok (d, (d, d))).
Proof.
  intros m x64 d Hd.
  assert (L : forall bias, linear m d bias d = Ok d) by (destruct Hd as [-> | [-> | [-> | ->]]], m; intros []; comp).
  assert (P : forall n, power_iterations m n d (d, d) = Ok (d, d)).
  { induction n as [|n IH]; [reflexivity|]. cbn [power_iterations fst snd].
    assert (power_iteration m d d d = Ok (d, d)) as -> by (destruct Hd as [-> | [-> | [-> | ->]]], m; comp). exact IH. }
  split; [exact L|]. split; [induction biases as [|b bs IH]; [reflexivity|cbn [mlp]; rewrite L; exact IH]|].
  split; [destruct Hd as [-> | [-> | [-> | ->]]], m; intros []; comp|].
  split; [destruct Hd as [-> | [-> | [-> | ->]]], m; intros []; comp|].
  split; [destruct Hd as [-> | [-> | [-> | ->]]], m, x64; intros []; comp|].
  split; [destruct Hd as [-> | [-> | [-> | ->]]], m, x64; intros [] []; split; comp|].
  split; [destruct Hd as [-> | [-> | [-> | ->]]], m, x64; intros [] []; comp|].
  split; [destruct Hd as [-> | [-> | [-> | ->]]], m, x64; intros p [] [-> | [-> | ->]]; comp|].
  split; [destruct Hd as [-> | [-> | [-> | ->]]]; comp|].
  split; [destruct Hd as [-> | [-> | [-> | ->]]]; comp|].
  split; [destruct Hd as [-> | [-> | [-> | ->]]], m, x64; comp|].
  split.
  { intros qb kb vb ob p inference masked Hp. unfold attention. rewrite !L. cbn [bind].
    assert (attention_weights m x64 d d masked = Ok d) as -> by (destruct Hd as [-> | [-> | [-> | ->]]], m, x64, masked; comp). cbn [bind].
    assert (dropout m x64 p inference d = Ok d) as -> by (destruct Hd as [-> | [-> | [-> | ->]]], m, x64, inference; destruct Hp as [-> | [-> | ->]]; comp). cbn [bind].
    assert (promote m d d = Ok d) as -> by (destruct Hd as [-> | [-> | [-> | ->]]], m; comp). cbn [bind]. apply L. }
  split; [exact P|]. intros n inference. unfold spectral_norm.
  assert ((if inference then Ok (d, d) else power_iterations m n d (d, d)) = Ok (d, d)) as -> by (destruct inference; [reflexivity|apply P]). cbn [bind fst snd].
  destruct Hd as [-> | [-> | [-> | ->]]], m, x64; comp.
Qed.

(** C116. So do layers of a complex dtype, with the standard promotion. *)
Theorem C116_kept_complex : forall x64 d, d = C64 \/ d = C128 ->
  (forall bias, linear Standard d bias d = Ok d /\ gru Standard d bias d d = Ok d /\ lstm Standard d bias d (d, d) = Ok (d, d) /\ conv Standard x64 d bias d = Ok d) /\
  (forall w b, layer_norm Standard x64 w b d = Ok d /\ rms_norm Standard x64 w b d = Ok d) /\
  (forall affine inference, batch_norm Standard x64 d affine inference d = Ok (d, d)) /\
  (forall qb kb vb ob inference masked, attention Standard x64 d qb kb vb ob WF inference masked d d d = Ok d).
Proof.
  intros x64 d [-> | ->]; (split; [intros []; repeat split|]); (split; [intros [] []; split; destruct x64; comp|]);
    (split; [destruct x64; intros [] []; comp|]); intros qb kb vb ob inference masked; destruct qb, kb, vb, ob, inference, masked, x64; comp.
Qed.
(** C116. With strict promotion, LayerNorm of complex inputs and attention with a mask raise, whatever the parameters: the variance, respectively the
    least number, is real. *)
Theorem C116_strict_complex_refuted : forall x64 d, d = C64 \/ d = C128 ->
  (forall w b, layer_norm Strict x64 w b d = Err ValueError) /\
  (forall qb kb vb ob p inference, attention Strict x64 d qb kb vb ob p inference true d d d = Err ValueError) /\
  (forall affine inference, batch_norm Strict x64 d affine inference d = Ok (d, d)).
Proof.
  intros x64 d [-> | ->]; (split; [destruct x64; comp|]); (split; [destruct x64; intros [] [] [] [] p inference; comp|]); destruct x64; intros [] []; comp.
Qed.

(** C116. Inputs of other dtypes: linear layers, MLPs, recurrent cells and attention promote. *)
Theorem C116_linear : forall w bias x, exists c, linear Standard w bias x = Ok c /\ lub [w; x] c.
Proof. intros w bias x. unfold linear. rewrite promote_join. cbn [bind]. destruct bias; [rewrite promote_join|]; eexists; (split; [reflexivity|]); lubs. Qed.
Theorem C116_mlp : forall w b biases x, exists c, mlp Standard w (b :: biases) x = Ok c /\ lub [w; x] c.
Proof.
  intros w b biases. revert b. induction biases as [|b' bs IH]; intros b x; destruct (C116_linear w b x) as (c & E & Hc).
  - exists c. cbn [mlp]. rewrite E. auto.
  - destruct (IH b' c) as (c2 & E2 & Hc2). exists c2. split; [cbn [mlp] in *; rewrite E; exact E2|].
    replace c2 with c; [exact Hc|]. apply below_antisym.
    + apply Hc2. right. left. reflexivity.
    + apply Hc2. intros t [<-|[<-|[]]]; [apply Hc; left; reflexivity|apply below_refl].
Qed.
Theorem C116_gru : forall w bias x h, inexact w -> exists c, gru Standard w bias x h = Ok c /\ lub [w; x; h] c.
Proof.
  intros w bias x h Hw. unfold gru. cbv zeta.
  assert (HB : below (if bias then w else WI) w) by (destruct bias; [apply below_refl|apply wi_below; exact Hw]).
  revert HB. generalize (if bias then w else WI). intros bb HB.
  proms.
  eexists. split; [reflexivity|].
  apply (lub_drop bb); [lubs|]. exists w. split; [left; reflexivity|exact HB].
Qed.
(** Both states take the common dtype in one step. *)
Theorem C116_lstm : forall w bias x h c, exists t, lstm Standard w bias x (h, c) = Ok (t, t) /\ lub [w; x; h; c] t.
Proof.
  intros w bias x h c. unfold lstm. proms.
  assert (E : exists l, (if bias then Ok (join (join (join w x) (join w h)) w) else Ok (join (join w x) (join w h))) = Ok l /\ lub [w; x; h] l).
  { destruct bias; rewrite ?promote_join; eexists; (split; [reflexivity|]); lubs. }
  destruct E as (l & -> & Hl). rewrite bind_Ok. proms.
  set (cc := join (join l c) (join l l)).
  assert (Hc : lub [w; x; h; c] cc).
  { eapply lub_same; [apply lub_join; [apply lub_join; [exact Hl|apply lub_one]|apply lub_join; exact Hl]|]. intros t. cbn [In app]. tauto. }
  exists cc. split; [|exact Hc]. do 2 f_equal. rewrite join_comm. apply join_absorb. subst cc.
  eapply rt_trans; [apply join_l|apply join_l].
Qed.
(** C116. A recurrent cell can be scanned over, its carry keeping its dtype, exactly if the hidden state's dtype is above those of parameters and input. *)
Theorem C116_scannable : forall w bias x h, inexact w ->
  (gru Standard w bias x h = Ok h <-> below w h /\ below x h) /\
  (forall c, lstm Standard w bias x (h, c) = Ok (h, c) <-> h = c /\ below w h /\ below x h).
Proof.
  intros w bias x h Hw. split; [|intros c].
  - destruct (C116_gru w bias x h Hw) as (d & -> & H1 & H2). split.
    + intros E. injection E as ->. split; apply H1; cbn; auto.
    + intros [K1 K2]. f_equal. apply below_antisym; [apply H2|apply H1; cbn; auto]. intros t [<-|[<-|[<-|[]]]]; auto. apply below_refl.
  - destruct (C116_lstm w bias x h c) as (d & -> & H1 & H2). split.
    + intros E. injection E as E1 E2. subst. split; [congruence|]. subst. split; apply H1; cbn; auto.
    + intros (<- & K1 & K2). assert (d = h) as ->; [|reflexivity]. apply below_antisym; [apply H2|apply H1; cbn; auto].
      intros t [<-|[<-|[<-|[<-|[]]]]]; auto; apply below_refl.
Qed.
Theorem C116_attention : forall x64 w qb kb vb ob p inference masked q k v, inexact w -> p = WI \/ p = WF ->
  exists c, attention Standard x64 w qb kb vb ob p inference masked q k v = Ok c /\ lub [w; q; k; v] c.
Proof.
  intros x64 w qb kb vb ob p inference masked q k v Hw Hp. unfold attention.
  assert (LI : forall b x c, linear Standard w b x = Ok c -> inexact c).
  { intros b x c E. unfold linear in E. rewrite promote_join in E. cbn [bind] in E. destruct b; [rewrite promote_join in E|]; injection E as <-; repeat apply join_inexact; exact Hw. }
  destruct (C116_linear w qb q) as (tq & Eq & Hq). destruct (C116_linear w kb k) as (tk & Ek & Hk). destruct (C116_linear w vb v) as (tv & Ev & Hv).
  pose proof (LI _ _ _ Eq) as Iq. rewrite Eq, Ek, Ev. rewrite ?bind_Ok.
  assert (HA : attention_weights Standard x64 tq tk masked = Ok (join tq tk)).
  { unfold attention_weights. proms. rewrite (join_absorb tq WF (wf_below _ Iq)), (inexact_to x64 tq Iq).
    pose proof (join_inexact tq tk Iq) as IJ. rewrite (inexact_dtype x64 _ IJ).
    assert (HR : join (join tq tk) (real_of (join tq tk)) = join tq tk).
    { apply join_absorb. clear -IJ. revert IJ. generalize (join tq tk). intros t H. unfold inexact, floating in H. intuition subst; apply below_leb; comp. }
    rewrite HR. destruct masked; rewrite bind_Ok; proms; rewrite (inexact_dtype x64 _ IJ); reflexivity. }
  rewrite HA. rewrite ?bind_Ok. pose proof (join_inexact tq tk Iq) as IJ.
  assert (HD : dropout Standard x64 p inference (join tq tk) = Ok (join tq tk)).
  { unfold dropout. destruct inference; [reflexivity|]. proms. proms.
    assert (join (join tq tk) (join WI p) = join tq tk) as ->.
    { apply join_absorb. apply below_join. split; [apply wi_below; exact IJ|]. destruct Hp as [-> | ->]; [apply wi_below|apply wf_below]; exact IJ. }
    rewrite (inexact_to x64 _ IJ). f_equal. apply join_absorb, wi_below, IJ. }
  rewrite HD. rewrite ?bind_Ok. proms. destruct (C116_linear w ob (join (join tq tk) tv)) as (c & -> & Hc). exists c. split; [reflexivity|].
  assert (HJ : lub [w; q; w; k; w; v] (join (join tq tk) tv)) by (apply (lub_join [w; q; w; k] [w; v]); [apply (lub_join [w; q] [w; k])|]; assumption).
  assert (c = join w (join (join tq tk) tv)) as -> by (apply (lub_unique [w; join (join tq tk) tv]); [exact Hc|apply (lub_join [w] [_]); apply lub_one]).
  apply (lub_same (w :: [w; q; w; k; w; v])); [apply (lub_join [w]); [apply lub_one|exact HJ]|]. intros t. cbn [In]. tauto.
Qed.

(** C116. Convolutions do not promote: inputs of another dtype raise. *)
Theorem C116_conv : forall m x64 w bias x, inexact w -> weak x = false -> conv m x64 w bias x = if ty_eqb x w then Ok w else Err TypeError.
Proof.
  intros m x64 w bias x Hw Hx. unfold conv. rewrite (inexact_dtype x64 w Hw), (strong_dtype x64 x Hx). destruct (ty_eqb x w) eqn:E; [|reflexivity].
  apply eqb_ok in E as ->. destruct bias; [|comp]. unfold inexact, floating in Hw. destruct m; intuition subst; comp.
Qed.

(** C116. LayerNorm, GroupNorm, RMSNorm and rotary embeddings give back the input's dtype, whatever the parameters; the norms compute in at least
    single precision. *)
Theorem C116_norms : forall x64 w b d x, weak x = false ->
  layer_norm Standard x64 w b x = Ok x /\ rms_norm Standard x64 w b x = Ok x /\ rope Standard x64 d x = Ok x /\
  exists c, norm_dtype x64 x = Ok c /\ lub [x; F32] c /\ inexact c.
Proof.
  intros x64 w b d x Hx.
  assert (ND : norm_dtype x64 x = Ok (join x F32)) by (destruct x; try discriminate; destruct x64; vm_compute; reflexivity).
  repeat split.
  - clear - Hx. destruct x; try discriminate; destruct x64, w, b; vm_compute; reflexivity.
  - clear - Hx. destruct x; try discriminate; destruct x64, w, b; vm_compute; reflexivity.
  - unfold rope. proms. rewrite (strong_dtype x64 x Hx). reflexivity.
  - exists (join x F32). split; [exact ND|]. split; [lubs|]. rewrite join_comm. apply join_inexact. left; right; right; left; reflexivity.
Qed.
(** C116. With strict promotion, too, parameters may have any dtype: they are cast. LayerNorm of complex numbers raises (its variance is real). *)
Theorem C116_norms_strict : forall x64 w b x, weak x = false ->
  layer_norm Strict x64 w b x = match x with C64 | C128 => Err ValueError | _ => Ok x end /\ rms_norm Strict x64 w b x = Ok x.
Proof. intros x64 w b x Hx. split; destruct x; try discriminate; destruct x64, w, b; vm_compute; reflexivity. Qed.
(** C116. With strict promotion rotary embeddings want inputs of their own dtype. *)
Theorem C116_rope_strict : forall x64 d x, weak x = false -> weak d = false ->
  rope Strict x64 d x = if ty_eqb x d then Ok x else Err ValueError.
Proof. intros x64 d x Hx Hd. destruct x; try discriminate; destruct d; try discriminate; destruct x64; comp. Qed.

(** C116. BatchNorm in training wants batch statistics of exactly the dtype of its parameters; those of integers have the default dtype. Otherwise
    it raises: a [ValueError] (from [State.set]) if the batch's dtype is above, a [TypeError] (from [lax.select]) if not. In inference mode it promotes. *)
Definition statistic (x64 : bool) (x : ty) : ty := if inexactb x then x else default x64.
Theorem C116_batch_norm : forall x64 s affine x, inexact s -> weak x = false ->
  batch_norm Standard x64 s affine false x =
    (if ty_eqb (statistic x64 x) s then Ok (s, s) else if leb Standard s (statistic x64 x) then Err ValueError else Err TypeError) /\
  exists c, batch_norm Standard x64 s affine true x = Ok (c, s) /\ lub [x; s] c.
Proof.
  intros x64 s affine x Hs Hx. split.
  - unfold inexact, floating in Hs. destruct x; try discriminate; destruct x64, affine; intuition subst; comp.
  - assert (HN : exists c, batch_norm Standard x64 s affine true x = Ok (c, s) /\ c = join x s).
    { unfold inexact, floating in Hs. destruct x; try discriminate; destruct x64, affine; intuition subst; eexists; split; comp. }
    destruct HN as (c & E & ->). eexists. split; [exact E|]. lubs.
Qed.

(** C116. Dropout with a number as probability keeps inexact dtypes; with an array it promotes. *)
Theorem C116_dropout : forall x64 x, inexact x ->
  (forall p inference, p = WI \/ p = WF -> dropout Standard x64 p inference x = Ok x) /\
  (forall p, inexact p -> exists c, dropout Standard x64 p false x = Ok c /\ lub [x; p] c).
Proof.
  intros x64 x Hx. split.
  - intros p inference Hp. unfold inexact, floating in Hx. destruct x64, inference; destruct Hp as [-> | ->]; intuition subst; comp.
  - intros p Hp. assert (HN : exists c, dropout Standard x64 p false x = Ok c /\ c = join x p).
    { unfold inexact, floating in Hx, Hp. destruct x64; intuition subst; eexists; split; comp. }
    destruct HN as (c & E & ->). exists (join x p). split; [exact E|]. lubs.
Qed.
(** Integers come out as integers in inference mode and as floating-point numbers in training. *)
Theorem C116_dropout_integers_refuted : forall x64 p x, integral x -> p = WI \/ p = WF ->
  dropout Standard x64 p true x = Ok x /\ exists c, dropout Standard x64 p false x = Ok c /\ dtype x64 c = default x64 /\ dtype x64 c <> x.
Proof.
  intros x64 p x [Hw Hi] Hp. unfold inexact, floating in Hi. split; [reflexivity|].
  destruct Hp as [-> | ->], x64; destruct x; try discriminate; try (exfalso; apply Hi; tauto); (eexists; split; [vm_compute; reflexivity|split; [reflexivity|discriminate]]).
Qed.
(** C116. PReLU: a slope given as a number is weakly typed, and the input's dtype is kept; one given as an array is promoted with the input. *)
Theorem C116_prelu : forall x, inexact x -> prelu (prelu_init WF) x = Ok x /\
  forall a, exists c, prelu (prelu_init a) x = Ok c /\ lub [a; x] c.
Proof.
  intros x Hx. split; [unfold inexact, floating in Hx; intuition subst; comp|]. intros a. unfold prelu, prelu_init. proms.
  eexists. split; [reflexivity|]. lubs.
Qed.
(** C116. SpectralNorm's state has the dtype of the weight and keeps it. *)
Theorem C116_spectral : forall x64 w b n inference x, inexact w ->
  spectral_init Standard w = Ok (w, w) /\ exists c, spectral_norm Standard x64 w b n inference (w, w) x = Ok (c, (w, w)) /\ lub [w; b; x] c.
Proof.
  intros x64 w b n inference x Hw.
  assert (P : forall n, power_iterations Standard n w (w, w) = Ok (w, w)).
  { clear n. induction n as [|n IH]; [reflexivity|]. cbn [power_iterations fst snd].
    assert (power_iteration Standard w w w = Ok (w, w)) as -> by (unfold inexact, floating in Hw; intuition subst; comp). exact IH. }
  split; [apply P|]. unfold spectral_norm.
  assert ((if inference then Ok (w, w) else power_iterations Standard n w (w, w)) = Ok (w, w)) as -> by (destruct inference; [reflexivity|apply P]). cbn [bind fst snd].
  assert (ty_eqb (dtype x64 w) (dtype x64 w) = true) as -> by (apply eqb_ok; reflexivity). cbn [andb]. proms.
  eexists. split; [reflexivity|]. lubs.
Qed.
(** C116. In inference mode the state is used as it is, and its dtypes count in the output. *)
Theorem C116_spectral_inference : forall x64 w b n du dv x, exists c, spectral_norm Standard x64 w b n true (du, dv) x = Ok (c, (du, dv)) /\ lub [w; b; x; du; dv] c.
Proof.
  intros x64 w b n du dv x. unfold spectral_norm. cbn [bind fst snd].
  assert (R : forall t, ty_eqb t t = true) by (intros t; apply eqb_ok; reflexivity). rewrite !R. cbn [andb]. proms. eexists. split; [reflexivity|].
  eapply lub_same; [apply lub_join; [apply lub_join; [apply lub_join; [apply lub_one|apply lub_join; [apply lub_join; apply lub_one|apply lub_one]]|apply lub_one]|apply lub_one]|]. intros t. cbn [In app]. tauto.
Qed.
Print Assumptions C116_spectral_inference.
(** C116. Of a weakly typed input (the default dtype) a convolution with weights of this dtype is weakly typed without a bias, and not with one. *)
Theorem C116_conv_weak : forall m x64 bias, conv m x64 (default x64) bias WF = Ok (if bias then default x64 else WF).
Proof. intros [] [] []; comp. Qed.
Print Assumptions C116_conv_weak.
(** A state of another dtype that the weight's would change is refused, if it is updated. *)
Theorem C116_spectral_state : forall x64 w du dv n x, inexact w -> inexact du -> inexact dv ->
  spectral_norm Standard x64 w w (S n) false (du, dv) x = Err ValueError <-> ~ (lub [w; dv] du /\ lub [w; dv] dv).
Proof.
  intros x64 w du d n x Hw Hu Hd.
  assert (L : lub [w; d] (join w d)) by lubs.
  assert (P : forall n, power_iterations Standard n w (join w d, join w d) = Ok (join w d, join w d)).
  { clear n. induction n as [|n IH]; [reflexivity|]. cbn [power_iterations fst snd].
    assert (power_iteration Standard w (join w d) (join w d) = Ok (join w d, join w d)) as ->
      by (unfold inexact, floating in Hw, Hd; intuition subst; comp). exact IH. }
  assert (S1 : power_iteration Standard w du d = Ok (join w d, join w d)) by (unfold inexact, floating in Hw, Hd; intuition subst; comp).
  unfold spectral_norm. cbn [power_iterations fst snd]. rewrite S1. cbn [bind fst snd]. rewrite P. cbn [bind fst snd].
  assert (dtype x64 (join w d) = join w d) as -> by (apply strong_dtype; apply join_inexact with (x := d) in Hw; apply inexact_ok in Hw; tauto).
  assert (dtype x64 d = d) as -> by (apply strong_dtype; apply inexact_ok in Hd; tauto).
  assert (dtype x64 du = du) as -> by (apply strong_dtype; apply inexact_ok in Hu; tauto).
  assert (U : forall e, lub [w; d] e -> join w d = e) by (intros e H; destruct L as [L1 L2], H as [H1 H2]; apply below_antisym; auto).
  destruct (ty_eqb (join w d) du) eqn:E; [destruct (ty_eqb (join w d) d) eqn:E2|]; cbn [andb].
  - apply eqb_ok in E, E2. rewrite E2 in E, L |- *. subst du. proms. split; [discriminate|]. intros H. tauto.
  - split; [intros _ [_ H]|reflexivity]. apply U in H. rewrite (proj2 (eqb_ok _ _) H) in E2. discriminate.
  - split; [intros _ [H _]|reflexivity]. apply U in H. rewrite (proj2 (eqb_ok _ _) H) in E. discriminate.
Qed.
Example C116_spectral_state_ex : spectral_norm Standard false F32 F32 1 false (BF16, BF16) F32 = Err ValueError /\
  spectral_norm Standard false BF16 BF16 1 false (F32, F32) F32 = Ok (F32, (F32, F32)).
Proof. split; comp. Qed.
(** C116. The default dtype. *)
Theorem C116_default : forall x64, dtype_or_default x64 None = default x64 /\ (forall d, dtype_or_default x64 (Some d) = d) /\ floating (default x64) /\
  dtype x64 WF = default x64 /\ dtype x64 WI = (if x64 then I64 else I32) /\ dtype x64 WC = (if x64 then C128 else C64) /\ (forall d, weak d = false -> dtype x64 d = d).
Proof. intros x64. repeat split; [unfold floating; destruct x64; cbn; tauto|]. intros d Hd. apply strong_dtype. exact Hd. Qed.
Print Assumptions C116_promotion.
Print Assumptions C116_kept.
Print Assumptions C116_kept_complex.
Print Assumptions C116_strict_complex_refuted.
Print Assumptions C116_linear.
Print Assumptions C116_mlp.
Print Assumptions C116_gru.
Print Assumptions C116_lstm.
Print Assumptions C116_scannable.
Print Assumptions C116_attention.
Print Assumptions C116_conv.
Print Assumptions C116_norms.
Print Assumptions C116_norms_strict.
Print Assumptions C116_rope_strict.
Print Assumptions C116_batch_norm.
Print Assumptions C116_dropout.
Print Assumptions C116_dropout_integers_refuted.
Print Assumptions C116_prelu.
Print Assumptions C116_spectral.
Print Assumptions C116_spectral_state.
Print Assumptions C116_default.

(** Half-precision inputs to layers of the default dtype: a linear layer computes in single precision, a convolution raises, LayerNorm returns half
    precision, BatchNorm raises in training. *)
Example C116_ex : linear Standard F32 true F16 = Ok F32 /\ conv Standard false F32 true F16 = Err TypeError /\ layer_norm Standard false (Some F32) (Some F32) F16 = Ok F16 /\
  batch_norm Standard false F32 true false F16 = Err TypeError /\ batch_norm Standard false F16 true false F32 = Err ValueError /\
  batch_norm Standard false F32 true true F16 = Ok (F32, F32) /\ gru Standard F32 true F32 F16 = Ok F32 /\ linear Strict F32 true F16 = Err ValueError /\
  promote Standard BF16 F16 = Ok F32 /\ promote Standard I64 WF = Ok WF /\ promote Standard I32 F16 = Ok F16.
Proof. repeat split; vm_compute; reflexivity. Qed.
