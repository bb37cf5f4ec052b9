(** C84: nextafter and prevbefore. *)
From Coq Require Import ZArith Lia Bool.
From Verif Require Import Nextafter_Model.
Local Open Scope Z_scope.

Section Props.
  Variables tiny top : Z.
  (** At least one normal number below infinity. *)
  Hypothesis format : 1 <= tiny < top.

  (** ** Vocabulary *)
  (** The bits of a number of the format. *)
  Definition number (x : fl) : Prop := match x with NaN => False | Fl _ m => 0 <= m <= top end.
  (** Position on the line, as the hardware compares. *)
  Definition pos (daz : bool) (x : fl) : Z :=
    match x with NaN => 0 | Fl s m => if daz && (m <? tiny) then 0 else if s then - m else m end.
  Definition lt daz x y := number x /\ number y /\ pos daz x < pos daz y.
  Definition le daz x y := number x /\ number y /\ pos daz x <= pos daz y.
  Definition inf : fl := Fl false top.
  Definition minus_inf : fl := Fl true top.
  Definition next daz := nextafter tiny top daz.
  Definition prev daz := prevbefore tiny top daz.

  (** ** Lemmas *)
  Lemma inf_not m s : Fl s m <> inf -> s = false -> m <> top.
  Proof. intros H -> ->. apply H. reflexivity. Qed.
  Lemma minus_inf_not m s : Fl s m <> minus_inf -> s = true -> m <> top.
  Proof. intros H -> ->. apply H. reflexivity. Qed.
  Lemma pos_range x : number x -> pos true x = 0 \/ tiny <= pos true x <= top \/ - top <= pos true x <= - tiny.
  Proof. destruct x as [|s m]; [contradiction|]. cbn. intros H. destruct (Z.ltb_spec m tiny); [auto|]. destruct s; lia. Qed.
  Lemma pos_top x : number x -> (pos true x = top <-> x = inf) /\ (pos true x = - top <-> x = minus_inf).
  Proof.
    destruct x as [|s m]; [contradiction|]. cbn. intros H. unfold inf, minus_inf. destruct (Z.ltb_spec m tiny).
    - split; split; intros E; try lia; injection E; intros; lia.
    - destruct s; split; split; intros E; try lia; try discriminate E; try (injection E; intros; lia); f_equal; lia.
  Qed.
  Lemma next_pos x : number x -> x <> inf ->
    number (next true x) /\ pos true (next true x) = (if pos true x =? 0 then tiny else if pos true x =? - tiny then 0 else pos true x + 1).
  Proof.
    destruct x as [|s m]; [contradiction|]. cbn [number]. intros H Hi. pose proof (inf_not m s Hi) as HT. unfold next, nextafter, is_zero. cbn [pos andb].
    destruct (Z.ltb_spec m tiny) as [L|L].
    - rewrite Z.eqb_refl. cbn [number pos andb]. rewrite Z.ltb_irrefl. lia.
    - unfold up. destruct (Z.eqb_spec m 0); [lia|]. destruct s.
      + destruct (Z.eqb_spec (- m) 0); [lia|]. cbn [number pos andb]. split; [lia|]. destruct (Z.ltb_spec (m - 1) tiny), (Z.eqb_spec (- m) (- tiny)); lia.
      + specialize (HT eq_refl). destruct (Z.eqb_spec m top); [contradiction|]. destruct (Z.eqb_spec m (- tiny)); [lia|]. cbn [number pos andb]. split; [lia|].
        destruct (Z.ltb_spec (m + 1) tiny), (Z.eqb_spec m 0); lia.
  Qed.
  Lemma prev_pos x : number x -> x <> minus_inf ->
    number (prev true x) /\ pos true (prev true x) = (if pos true x =? 0 then - tiny else if pos true x =? tiny then 0 else pos true x - 1).
  Proof.
    destruct x as [|s m]; [contradiction|]. cbn [number]. intros H Hi. pose proof (minus_inf_not m s Hi) as HT. unfold prev, prevbefore, is_zero, neg_fl. cbn [pos andb negb].
    destruct (Z.ltb_spec m tiny) as [L|L].
    - rewrite Z.eqb_refl. cbn [number pos andb]. rewrite Z.ltb_irrefl. lia.
    - unfold down. destruct (Z.eqb_spec m 0); [lia|]. destruct s.
      + specialize (HT eq_refl). destruct (Z.eqb_spec m top); [contradiction|]. destruct (Z.eqb_spec (- m) 0); [lia|]. destruct (Z.eqb_spec (- m) tiny); [lia|]. cbn [number pos andb]. split; [lia|].
        destruct (Z.ltb_spec (m + 1) tiny); lia.
      + cbn [number pos andb]. split; [lia|]. destruct (Z.ltb_spec (m - 1) tiny), (Z.eqb_spec m tiny), (Z.eqb_spec m 0); lia.
  Qed.
  Ltac cases := repeat match goal with |- context [?a =? ?b] => destruct (Z.eqb_spec a b) end.

  (** ** Theorems *)
  (** With denormals compared as zero: the least number above, and the greatest below. *)
  Theorem C84_next : forall x, number x -> x <> inf ->
    lt true x (next true x) /\ forall y, lt true x y -> le true (next true x) y.
  Proof.
    intros x Hx Hi. destruct (next_pos x Hx Hi) as [N E]. unfold lt, le. split; [split; [exact Hx|split; [exact N|]]|].
    - rewrite E. pose proof (pos_range x Hx). cases; lia.
    - intros y (_ & Hy & H). split; [exact N|split; [exact Hy|]]. rewrite E. pose proof (pos_range x Hx). pose proof (pos_range y Hy). cases; lia.
  Qed.
  Theorem C84_prev : forall x, number x -> x <> minus_inf ->
    lt true (prev true x) x /\ forall y, lt true y x -> le true y (prev true x).
  Proof.
    intros x Hx Hi. destruct (prev_pos x Hx Hi) as [N E]. unfold lt, le. split; [split; [exact N|split; [exact Hx|]]|].
    - rewrite E. pose proof (pos_range x Hx). cases; lia.
    - intros y (Hy & _ & H). split; [exact Hy|split; [exact N|]]. rewrite E. pose proof (pos_range x Hx). pose proof (pos_range y Hy). cases; lia.
  Qed.
  (** Infinities and NaN. *)
  Theorem C84_ends : forall daz, next daz inf = inf /\ prev daz minus_inf = minus_inf /\ next daz NaN = NaN /\ prev daz NaN = NaN.
  Proof.
    intros daz. unfold next, prev, nextafter, prevbefore, is_zero, up, down, inf, minus_inf.
    assert (top <? tiny = false) as -> by (apply Z.ltb_ge; lia). assert (top =? 0 = false) as -> by (apply Z.eqb_neq; lia). rewrite !Z.eqb_refl.
    destruct daz; auto.
  Qed.
  (** They mirror each other. *)
  Theorem C84_mirror : forall daz x, prev daz (neg_fl x) = neg_fl (next daz x).
  Proof.
    intros daz [|s m]; [destruct daz; reflexivity|]. unfold next, prev, nextafter, prevbefore, is_zero, neg_fl, up, down.
    destruct daz, s; cbn [negb]; repeat match goal with |- context [if ?c then _ else _] => destruct c end; reflexivity.
  Qed.
  (** Each undoes the other, up to comparison. *)
  Theorem C84_inverse : forall x, number x ->
    (x <> inf -> pos true (prev true (next true x)) = pos true x) /\ (x <> minus_inf -> pos true (next true (prev true x)) = pos true x).
  Proof.
    intros x Hx. pose proof (pos_range x Hx) as R. destruct (pos_top x Hx) as [T1 T2]. split; intros Hi.
    - destruct (next_pos x Hx Hi) as [N E]. assert (M : next true x <> minus_inf).
      { intros C. apply (pos_top _ N) in C. rewrite E in C. revert C. cases; lia. }
      destruct (prev_pos _ N M) as [_ ->]. rewrite E. destruct (Z.eqb_spec (pos true x) 0), (Z.eqb_spec (pos true x) (- tiny)); cases; lia.
    - destruct (prev_pos x Hx Hi) as [N E]. assert (M : prev true x <> inf).
      { intros C. apply (pos_top _ N) in C. rewrite E in C. revert C. cases; lia. }
      destruct (next_pos _ N M) as [_ ->]. rewrite E. destruct (Z.eqb_spec (pos true x) 0), (Z.eqb_spec (pos true x) tiny); cases; lia.
  Qed.
  Theorem C84_monotone : forall x y, le true x y -> le true (next true x) (next true y) /\ le true (prev true x) (prev true y).
  Proof.
    intros x y (Hx & Hy & H). pose proof (pos_range x Hx) as Rx. pose proof (pos_range y Hy) as Ry. destruct (pos_top x Hx) as [X1 X2]. destruct (pos_top y Hy) as [Y1 Y2].
    destruct (C84_ends true) as (E1 & E2 & _). unfold le.
    assert (DX : x = inf \/ x <> inf) by (destruct (Z.eq_dec (pos true x) top); [left; tauto|right; tauto]).
    assert (DY : y = inf \/ y <> inf) by (destruct (Z.eq_dec (pos true y) top); [left; tauto|right; tauto]).
    assert (DX' : x = minus_inf \/ x <> minus_inf) by (destruct (Z.eq_dec (pos true x) (- top)); [left; tauto|right; tauto]).
    assert (DY' : y = minus_inf \/ y <> minus_inf) by (destruct (Z.eq_dec (pos true y) (- top)); [left; tauto|right; tauto]).
    split.
    - destruct DX as [->|NX].
      + assert (y = inf) as -> by (apply Y1; rewrite (proj2 X1 eq_refl) in *; lia). rewrite E1. auto.
      + destruct (next_pos x Hx NX) as [N E]. destruct DY as [->|NY].
        * rewrite E1. split; [exact N|split; [exact Hy|]]. rewrite E. rewrite (proj2 Y1 eq_refl). assert (pos true x <> top) by tauto. cases; lia.
        * destruct (next_pos y Hy NY) as [N' E']. split; [exact N|split; [exact N'|]]. rewrite E, E'. cases; lia.
    - destruct DY' as [->|NY].
      + assert (x = minus_inf) as -> by (apply X2; rewrite (proj2 Y2 eq_refl) in *; lia). rewrite E2. auto.
      + destruct (prev_pos y Hy NY) as [N E]. destruct DX' as [->|NX].
        * rewrite E2. split; [exact Hx|split; [exact N|]]. rewrite E. rewrite (proj2 X2 eq_refl). assert (pos true y <> - top) by tauto. cases; lia.
        * destruct (prev_pos x Hx NX) as [N' E']. split; [exact N'|split; [exact N|]]. rewrite E, E'. cases; lia.
  Qed.
  (** If denormals compare as what they are: right away from zero, wrong at zero, where denormals are skipped. *)
  Theorem C84_denormals_away_from_zero : forall x, number x -> pos false x <> 0 -> x <> inf ->
    lt false x (next false x) /\ forall y, lt false x y -> le false (next false x) y.
  Proof.
    intros [|s m] Hx H0 Hi; [contradiction|]. pose proof (inf_not m s Hi) as HT. cbn [number pos andb] in Hx, H0.
    assert (M : m <> 0) by (intros ->; destruct s; apply H0; reflexivity).
    unfold lt, le, next, nextafter, is_zero, up. destruct (Z.eqb_spec m 0); [contradiction|]. destruct s.
    - cbn [number pos andb]. split; [lia|]. intros [|s' m'] (_ & Hy & H); [contradiction|]. cbn [number pos andb] in Hy, H |- *. destruct s'; lia.
    - specialize (HT eq_refl). destruct (Z.eqb_spec m top); [contradiction|]. cbn [number pos andb]. split; [lia|]. intros [|s' m'] (_ & Hy & H); [contradiction|]. cbn [number pos andb] in Hy, H |- *. destruct s'; lia.
  Qed.
  Theorem C84_denormals_refuted : 2 < tiny ->
    (exists y, lt false (Fl false 0) y /\ lt false y (next false (Fl false 0))) /\
    (exists x y, lt false x y /\ lt false (next false y) (next false x)).
  Proof.
    intros Ht. unfold lt, next, nextafter, is_zero, up. split.
    - exists (Fl false 1). cbn [Z.eqb number pos andb]. lia.
    - exists (Fl false 0), (Fl false 1). change (0 =? 0) with true. change (1 =? 0) with false. destruct (Z.eqb_spec 1 top); [lia|]. cbn [number pos andb]. lia.
  Qed.
  (** The derivative is one everywhere, at zero too. *)
  Theorem C84_tangents : forall T daz x (t : T), snd (nextafter_jvp tiny top daz x t) = t /\ snd (prevbefore_jvp tiny top daz x t) = t /\
    fst (nextafter_jvp tiny top daz x t) = next daz x /\ fst (prevbefore_jvp tiny top daz x t) = prev daz x.
  Proof. intros. repeat split. Qed.
End Props.
Print Assumptions C84_next.
Print Assumptions C84_prev.
Print Assumptions C84_ends.
Print Assumptions C84_mirror.
Print Assumptions C84_inverse.
Print Assumptions C84_monotone.
Print Assumptions C84_denormals_away_from_zero.
Print Assumptions C84_denormals_refuted.
Print Assumptions C84_tangents.

(** A small format: denormals 1 to 3, normal numbers 4 to 9, infinity 10. Below the least normal number comes a zero (a denormal). *)
Example C84_ex :
  next 4 10 true (Fl false 0) = Fl false 4 /\ next 4 10 true (Fl true 2) = Fl false 4 /\ next 4 10 true (Fl true 4) = Fl true 3 /\
  next 4 10 true (Fl false 9) = Fl false 10 /\ prev 4 10 true (Fl false 0) = Fl true 4 /\ prev 4 10 true (Fl false 5) = Fl false 4 /\
  next 4 10 false (Fl true 1) = Fl true 0 /\ number 10 (Fl true 2).
Proof. repeat split; try reflexivity; cbn; discriminate. Qed.
