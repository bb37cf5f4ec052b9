(** C88: the values of pooling layers. *)
From Coq Require Import Lia Lra.
From Verif Require Import Pool_Proofs Pool_Props PoolNd_Model.
Local Open Scope nat_scope.
Local Open Scope list_scope.

(** ** Vocabulary *)
(** All choices of one element of each list. *)
Fixpoint choices {X} (ls : list (list X)) : list (list X) :=
  match ls with [] => [[]] | l :: ls => flat_map (fun a => map (cons a) (choices ls)) l end.
(** The places [q] of an axis that are in its window number [j]: [j * stride <= q + left padding < j * stride + kernel]. *)
Definition window_of (a : axis) (j : nat) : list nat :=
  List.filter (fun q => (Z.of_nat j * as_ a <=? Z.of_nat q + al a)%Z && (Z.of_nat q + al a <? Z.of_nat j * as_ a + ak a)%Z) (seq 0 (Z.to_nat (an a))).
(** The multi-indices in window number [js]. *)
Definition window_at (axes : list axis) (js : list nat) : list (list nat) :=
  choices (map (fun p => window_of (fst p) (snd p)) (List.combine axes js)).
Definition sizes (axes : list axis) : list nat := map (fun a => Z.to_nat (an a)) axes.
Definition ok_axis (a : axis) : Prop := (0 <= an a /\ 0 < ak a /\ 0 < as_ a)%Z.

(** ** Folding over a window *)
Section Fold.
  Context {A : Type} (op : A -> A -> A) (init : A).
  Hypothesis unit_r : forall a, op a init = a.

  Lemma fold_read {X} (f : X -> A) (b : X -> bool) l a :
    fold_left op (map (fun q => if b q then f q else init) l) a = fold_left op (map f (List.filter b l)) a.
  Proof.
    revert a. induction l as [|q l IH]; intros a; [reflexivity|]. cbn [map fold_left List.filter]. destruct (b q); cbn [map fold_left]; [apply IH|].
    rewrite unit_r. apply IH.
  Qed.
End Fold.
Lemma filter_flat_map {X Y} (b : Y -> bool) (f : X -> list Y) l : List.filter b (flat_map f l) = flat_map (fun x => List.filter b (f x)) l.
Proof. induction l as [|x l IH]; [reflexivity|]. cbn. rewrite List.filter_app, IH. reflexivity. Qed.
Lemma flat_map_nil {X Y} (f : X -> list Y) l : (forall x, In x l -> f x = []) -> flat_map f l = [].
Proof. intros H. induction l as [|x l IH]; [reflexivity|]. cbn. rewrite H by (left; reflexivity). apply IH. intros y Hy. apply H. right. exact Hy. Qed.
Lemma flat_map_filter {X Y} (b : X -> bool) (f : X -> list Y) l :
  flat_map (fun x => if b x then f x else []) l = flat_map f (List.filter b l).
Proof. induction l as [|x l IH]; [reflexivity|]. cbn. destruct (b x); cbn; rewrite IH; reflexivity. Qed.
Lemma filter_map {X Y} (b : Y -> bool) (f : X -> Y) l : List.filter b (map f l) = map f (List.filter (fun x => b (f x)) l).
Proof. induction l as [|x l IH]; [reflexivity|]. cbn. destruct (b (f x)); cbn; rewrite IH; reflexivity. Qed.
Lemma filter_le {X} (b : X -> bool) l : length (List.filter b l) <= length l.
Proof. induction l as [|x l IH]; [apply le_n|]. cbn. destruct (b x); cbn; lia. Qed.
(** Places of one axis in increasing order. *)
Lemma filter_zseq (n : nat) (k lo : Z) : (0 <= k)%Z ->
  map Z.to_nat (List.filter (fun q => (0 <=? q)%Z && (q <? Z.of_nat n)%Z) (map (fun o => (lo + o)%Z) (zseq k))) =
  List.filter (fun q => (lo <=? Z.of_nat q)%Z && (Z.of_nat q <? lo + k)%Z) (seq 0 n).
Proof.
  intros Hk. unfold zseq. rewrite map_map. replace (lo + k)%Z with (lo + Z.of_nat (Z.to_nat k))%Z by lia. generalize (Z.to_nat k) as m. clear k Hk.
  induction m as [|m IH].
  - cbn [seq map List.filter]. symmetry. induction (seq 0 n) as [|q l IHl]; [reflexivity|]. cbn [List.filter].
    destruct (Z.leb_spec lo (Z.of_nat q)), (Z.ltb_spec (Z.of_nat q) (lo + Z.of_nat 0)); cbn [andb]; try exact IHl. lia.
  - rewrite seq_S, map_app, List.filter_app, map_app, IH. cbn [map List.filter Nat.add]. clear IH.
    set (p := (lo + Z.of_nat m)%Z).
    destruct ((0 <=? p)%Z && (p <? Z.of_nat n)%Z) eqn:E; cbn [map].
    + apply andb_prop in E as [E1 E2]. apply Z.leb_le in E1. apply Z.ltb_lt in E2.
      assert (Hs : seq 0 n = seq 0 (Z.to_nat p) ++ Z.to_nat p :: seq (S (Z.to_nat p)) (n - S (Z.to_nat p))).
      { replace n with (Z.to_nat p + S (n - S (Z.to_nat p))) at 1 by lia. rewrite seq_app. reflexivity. }
      rewrite Hs, !List.filter_app. cbn [List.filter].
      assert (F1 : forall l, (forall q, In q l -> (p < Z.of_nat q)%Z) ->
                 List.filter (fun q => (lo <=? Z.of_nat q)%Z && (Z.of_nat q <? p)%Z) l = [] /\
                 List.filter (fun q => (lo <=? Z.of_nat q)%Z && (Z.of_nat q <? lo + Z.of_nat (S m))%Z) l = []).
      { intros l. induction l as [|q l IHl]; intros H; [split; reflexivity|]. cbn [List.filter].
        assert (Hq := H q (or_introl eq_refl)). destruct (IHl (fun y Hy => H y (or_intror Hy))) as [-> ->].
        destruct (Z.ltb_spec (Z.of_nat q) p); [unfold p in *; lia|].
        destruct (Z.ltb_spec (Z.of_nat q) (lo + Z.of_nat (S m))); [unfold p in *; lia|]. rewrite andb_false_r. split; reflexivity. }
      destruct (F1 (seq (S (Z.to_nat p)) (n - S (Z.to_nat p)))) as [-> ->]; [intros q Hq; apply in_seq in Hq; lia|].
      rewrite Z2Nat.id by lia.
      destruct (Z.leb_spec lo p); [|unfold p in *; lia]. destruct (Z.ltb_spec p p); [unfold p in *; lia|].
      destruct (Z.ltb_spec p (lo + Z.of_nat (S m))); [|unfold p in *; lia]. cbn [andb]. rewrite app_nil_r. f_equal.
      apply List.filter_ext_in. intros q Hq. apply in_seq in Hq. f_equal.
      destruct (Z.ltb_spec (Z.of_nat q) p), (Z.ltb_spec (Z.of_nat q) (lo + Z.of_nat (S m))); try reflexivity; unfold p in *; lia.
    + rewrite app_nil_r. apply List.filter_ext_in. intros q Hq. apply in_seq in Hq. f_equal.
      destruct (Z.ltb_spec (Z.of_nat q) p), (Z.ltb_spec (Z.of_nat q) (lo + Z.of_nat (S m))); try reflexivity; try lia.
Qed.

(** The places of a window that are inside of the array. *)
Lemma places_inside r : forall axes js, Forall ok_axis axes -> length js = length axes ->
  map (map Z.to_nat) (List.filter (inside (sizes axes)) (map (place js (map as_ axes) (map (fun a => (al a, r a)) axes)) (offsets (map ak axes)))) =
  window_at axes js.
Proof.
  induction axes as [|a axes IH]; intros [|j js] Hok Hl; cbn in Hl; try lia.
  - reflexivity.
  - inversion Hok as [|? ? Ha Hok']; subst. injection Hl as Hl. specialize (IH js Hok' Hl).
    unfold window_at. cbn [List.combine map choices fst snd]. fold (window_at axes js). rewrite <- IH. clear IH.
    set (P := map (place js (map as_ axes) (map (fun a0 => (al a0, r a0)) axes)) (offsets (map ak axes))).
    set (lo := (Z.of_nat j * as_ a - al a)%Z). destruct Ha as (Hn & Hk & Hs).
    assert (W : window_of a j = map Z.to_nat (List.filter (fun q => (0 <=? q)%Z && (q <? Z.of_nat (Z.to_nat (an a)))%Z) (map (fun o => (lo + o)%Z) (zseq (ak a))))).
    { rewrite filter_zseq by lia. unfold window_of. apply List.filter_ext. intros q. unfold lo.
      destruct (Z.leb_spec (Z.of_nat j * as_ a) (Z.of_nat q + al a)), (Z.leb_spec (Z.of_nat j * as_ a - al a) (Z.of_nat q)); try lia;
      destruct (Z.ltb_spec (Z.of_nat q + al a) (Z.of_nat j * as_ a + ak a)), (Z.ltb_spec (Z.of_nat q) (Z.of_nat j * as_ a - al a + ak a)); try lia; reflexivity. }
    rewrite W. cbn [offsets].
    assert (E : map (place (j :: js) (as_ a :: map as_ axes) ((al a, r a) :: map (fun a0 => (al a0, r a0)) axes))
                  (flat_map (fun o => map (cons o) (offsets (map ak axes))) (zseq (ak a))) =
                flat_map (fun o => map (cons (lo + o)%Z) P) (zseq (ak a))).
    { rewrite flat_map_concat_map, concat_map, map_map, <- flat_map_concat_map. apply flat_map_ext. intros o. unfold P. rewrite !map_map.
      apply map_ext. intros off. cbn [place fst]. f_equal. unfold lo. lia. }
    rewrite E. clear E. rewrite filter_flat_map.
    cbn [sizes map]. fold (sizes axes).
    assert (E : forall o, List.filter (inside (Z.to_nat (an a) :: sizes axes)) (map (cons (lo + o)%Z) P) =
       if (0 <=? lo + o)%Z && (lo + o <? Z.of_nat (Z.to_nat (an a)))%Z then map (cons (lo + o)%Z) (List.filter (inside (sizes axes)) P) else []).
    { intros o. rewrite filter_map. cbn [inside]. destruct ((0 <=? lo + o)%Z && (lo + o <? Z.of_nat (Z.to_nat (an a)))%Z); cbn [andb].
      - reflexivity.
      - induction P as [|p P IHP]; [reflexivity|exact IHP]. }
    rewrite (flat_map_ext _ _ E), flat_map_filter, filter_map, map_map. clear E.
    induction (List.filter _ (zseq (ak a))) as [|o l IHl]; [reflexivity|]. cbn [flat_map map]. rewrite map_app, IHl, !map_map. reflexivity.
Qed.

(** ** The layer *)
Definition unit_axis (n : nat) : axis := {| an := Z.of_nat n; al := 0; ar := 0; ak := 1; as_ := 1 |}.
Lemma unit_window n j : j < n -> window_of (unit_axis n) j = [j].
Proof.
  intros H. unfold window_of, unit_axis. cbn [an al ak as_]. rewrite Nat2Z.id.
  replace n with (j + (1 + (n - S j))) by lia. rewrite !seq_app, !List.filter_app. cbn [seq List.filter Nat.add].
  assert (F : forall l, (forall q, In q l -> q <> j) ->
     List.filter (fun q => (Z.of_nat j * 1 <=? Z.of_nat q + 0)%Z && (Z.of_nat q + 0 <? Z.of_nat j * 1 + 1)%Z) l = []).
  { induction l as [|q l IH]; intros Hl; [reflexivity|]. cbn [List.filter]. assert (Hq := Hl q (or_introl eq_refl)).
    rewrite IH by (intros y Hy; apply Hl; right; exact Hy).
    destruct (Z.leb_spec (Z.of_nat j * 1) (Z.of_nat q + 0)), (Z.ltb_spec (Z.of_nat q + 0) (Z.of_nat j * 1 + 1)); try reflexivity. lia. }
  rewrite !F by (intros q Hq; apply in_seq in Hq; lia).
  destruct (Z.leb_spec (Z.of_nat j * 1) (Z.of_nat j + 0)); [|lia]. destruct (Z.ltb_spec (Z.of_nat j + 0) (Z.of_nat j * 1 + 1)); [|lia]. reflexivity.
Qed.
Lemma choices_snoc {X} (ls : list (list X)) (c : X) : choices (ls ++ [[c]]) = map (fun l => l ++ [c]) (choices ls).
Proof.
  induction ls as [|l ls IH]; [reflexivity|]. cbn [app choices]. rewrite IH. clear IH.
  induction l as [|a l IHl]; [reflexivity|]. cbn [flat_map]. rewrite IHl, map_app, !map_map. reflexivity.
Qed.
Lemma removelast_snoc {X} (l : list X) a : removelast (l ++ [a]) = l.
Proof. rewrite removelast_app by discriminate. cbn. apply app_nil_r. Qed.

Lemma window_at_ext axes js n ch c : length js = length axes -> 0 < n -> ch < c ->
  window_at (unit_axis n :: axes ++ [unit_axis c]) (0 :: js ++ [ch]) = map (fun q => 0 :: q ++ [ch]) (window_at axes js).
Proof.
  intros Hl Hn Hc. unfold window_at. cbn [List.combine map fst snd choices]. rewrite unit_window by exact Hn. cbn [flat_map]. rewrite app_nil_r.
  assert (E : List.combine (axes ++ [unit_axis c]) (js ++ [ch]) = List.combine axes js ++ [(unit_axis c, ch)]).
  { revert js Hl. induction axes as [|a axes IH]; intros [|j js] Hl; cbn in Hl; try lia; [reflexivity|]. cbn. f_equal. apply IH. lia. }
  rewrite E, map_app. cbn [map fst snd]. rewrite unit_window by exact Hc. rewrite choices_snoc, map_map. reflexivity.
Qed.

(** C88. Every entry is the reduction of the entries of its channel inside of its window. *)
Theorem C88_window : forall (A : Type) (op : A -> A -> A) (init : A), (forall a, op a init = a) ->
  forall ceil c axes (x : list nat -> A), Forall ok_axis axes -> forallb (accepted ceil) axes = true ->
  exists y, pool_call op init (pool_of ceil axes) (c :: sizes axes, x) = Ok y /\
    fst y = c :: map (fun a => Z.to_nat (out_size ceil a)) axes /\
    forall ch js, ch < c -> length js = length axes ->
      snd y (ch :: js) = fold_left op (map (fun q => x (ch :: q)) (window_at axes js)) init.
Proof.
  intros A op init Hu ceil c axes x Hok Hacc.
  assert (Hpos : Forall (fun a => 0 < ak a /\ 0 < as_ a)%Z axes) by (eapply Forall_impl; [|exact Hok]; intros a (_ & H); exact H).
  assert (Hsz : map Z.of_nat (sizes axes) = map an axes).
  { unfold sizes. rewrite map_map. apply map_ext_in. intros a Ha. rewrite Forall_forall in Hok. destruct (Hok a Ha). lia. }
  pose proof (C36_shape ceil (Z.of_nat c) axes Hpos) as HS. rewrite Hacc in HS.
  unfold pool_shape in HS. cbn [pool_of nsd kernel stride padding use_ceil] in HS. rewrite map_length, Nat.eqb_refl in HS. cbn [negb] in HS.
  unfold pool_call. cbn [pool_of nsd kernel stride padding use_ceil fst tl length]. unfold sizes at 1. rewrite map_length, Nat.add_1_r, Nat.eqb_refl. cbn [negb].
  rewrite Hsz.
  set (ps := map (fun a => PPair (al a) (ar a + extra ceil a)) axes).
  assert (H1 : (if ceil then ceil_paddings (map an axes) (map (fun a => PPair (al a) (ar a)) axes) (map ak axes) (map as_ axes)
                else Ok (map (fun a => PPair (al a) (ar a)) axes)) = Ok ps).
  { unfold ps. clear HS Hacc Hok Hsz. destruct ceil; [|f_equal; apply map_ext; intros a; unfold extra; cbn; f_equal; lia].
    induction Hpos as [|a axes [Hk Hs] HF IH]; cbn [map ceil_paddings]; auto. cbn [unpack bind]. unfold ceil_padding. cbn [fst snd].
    destruct (Z.eqb_spec (as_ a) 0); [lia|]. fold (room a). unfold extra at 1. cbn [andb].
    destruct (Z.eqb (room a mod as_ a) 0); cbn [bind negb fst snd]; rewrite IH; cbn [bind]; auto. do 3 f_equal. lia. }
  rewrite H1 in HS |- *. cbn [bind] in HS |- *.
  destruct (check_padding ps (map ak axes)) as [u|e]; [|discriminate]. cbn [bind] in HS |- *.
  destruct (reduce_shape (map an axes) ps (map ak axes) (map as_ axes)) as [out|e] eqn:HR; [|discriminate]. cbn [bind] in HS.
  assert (Hout : out = map (out_size ceil) axes) by congruence. clear HS. subst out.
  (* the call of reduce_window *)
  unfold reduce_window_nd. unfold first_to_last, expand0. cbn [fst snd tl hd].
  assert (HR' : reduce_shape (map Z.of_nat (1 :: sizes axes ++ [c])) ([PPair 0 0] ++ ps ++ [PPair 0 0]) ([1%Z] ++ map ak axes ++ [1%Z]) ([1%Z] ++ map as_ axes ++ [1%Z])
          = Ok (1%Z :: map (out_size ceil) axes ++ [Z.of_nat c])).
  { cbn [map app]. rewrite map_app, Hsz. cbn [map reduce_shape unpack bind]. change ((1 <=? 0)%Z || (1 <=? 0)%Z) with false. cbn [bind].
    assert (G : forall ns ps ks ss o, reduce_shape ns ps ks ss = Ok o ->
       reduce_shape (ns ++ [Z.of_nat c]) (ps ++ [PPair 0 0]) (ks ++ [1%Z]) (ss ++ [1%Z]) = Ok (o ++ [Z.of_nat c])).
    { clear. induction ns as [|n ns IH]; intros [|p ps] [|k ks] [|s ss] o H; cbn [reduce_shape] in H; try discriminate.
      - injection H as <-. cbn [app reduce_shape unpack bind]. change ((1 <=? 0)%Z || (1 <=? 0)%Z) with false. cbn [bind]. unfold window_count. cbn [fst snd].
        rewrite Z.div_1_r. do 2 f_equal. lia.
      - cbn [app reduce_shape]. destruct ((k <=? 0)%Z || (s <=? 0)%Z); [discriminate|]. apply bind_ok in H as (p' & Hp & H). rewrite Hp. cbn [bind].
        apply bind_ok in H as (o' & Ho & H). rewrite (IH _ _ _ _ Ho). injection H as <-. reflexivity. }
    rewrite (G _ _ _ _ _ HR). reflexivity. }
  rewrite HR'. cbn [bind].
  set (pads := ((0, 0) :: map (fun a => (al a, ar a + extra ceil a)) axes ++ [(0, 0)])%Z).
  assert (HP : mapM unpack ([PPair 0 0] ++ ps ++ [PPair 0 0]) = Ok pads).
  { unfold ps, pads. cbn [app mapM unpack bind]. clear. induction axes as [|a axes IH]; [reflexivity|]. cbn [map app mapM unpack bind].
    apply bind_ok in IH as (l & -> & E). injection E as ->. reflexivity. }
  rewrite HP. cbn [bind squeeze0 fst map]. change (Z.to_nat 1) with 1. cbn [bind]. eexists. split; [reflexivity|].
  unfold last_to_first. cbn [fst snd]. split.
  - rewrite map_app. cbn [map]. rewrite last_last, removelast_snoc, Nat2Z.id, map_map. reflexivity.
  - intros ch js Hc Hl. cbn [tl hd]. unfold read. cbn [fst snd].
    set (ax := unit_axis 1 :: axes ++ [unit_axis c]). set (idx := 0 :: js ++ [ch]).
    assert (HX : Forall ok_axis ax).
    { constructor; [repeat split; cbn; lia|]. apply Forall_app. split; [exact Hok|]. constructor; [|constructor]. repeat split; unfold unit_axis; cbn [an ak as_]; lia. }
    pose proof (places_inside (fun a => (ar a + extra ceil a)%Z) ax idx HX) as HPl.
    assert (Hlen : length idx = length ax) by (unfold idx, ax; cbn [length]; rewrite !app_length, Hl; reflexivity).
    specialize (HPl Hlen).
    assert (E1 : sizes ax = 1 :: sizes axes ++ [c]).
    { unfold sizes, ax. cbn [map]. rewrite map_app. cbn [map unit_axis an]. rewrite !Nat2Z.id. reflexivity. }
    assert (E2 : map as_ ax = ([1] ++ map as_ axes ++ [1])%Z) by (unfold ax; cbn [map]; rewrite map_app; reflexivity).
    assert (E3 : map ak ax = ([1] ++ map ak axes ++ [1])%Z) by (unfold ax; cbn [map]; rewrite map_app; reflexivity).
    assert (E4 : map (fun a => (al a, (ar a + extra ceil a)%Z)) ax = pads).
    { unfold ax, pads. cbn [map]. rewrite map_app. cbn [map]. unfold extra at 1 3. unfold unit_axis. cbn [al ar as_].
      rewrite !Z.mod_1_r. cbn [Z.eqb negb]. rewrite andb_false_r. reflexivity. }
    rewrite E1, E2, E3, E4 in HPl.
    pose proof (window_at_ext axes js 1 ch c Hl ltac:(lia) Hc) as HW. fold ax idx in HW.
    set (g := fun p : list nat => x (last (tl p) 0 :: removelast (tl p))).
    set (P := place idx ([1] ++ map as_ axes ++ [1])%Z pads) in *.
    set (sh := 1 :: sizes axes ++ [c]) in *.
    change (fold_left op (map (fun off => if inside sh (P off) then g (map Z.to_nat (P off)) else init) (offsets ([1] ++ map ak axes ++ [1])%Z)) init =
      fold_left op (map (fun q => x (ch :: q)) (window_at axes js)) init).
    rewrite <- (map_map P (fun q => if inside sh q then g (map Z.to_nat q) else init)), (fold_read op init Hu).
    rewrite <- (map_map (map Z.to_nat) g), HPl, HW, map_map. f_equal. apply map_ext. intros q. unfold g. cbn [tl].
    rewrite last_last, removelast_snoc. reflexivity.
Qed.
Print Assumptions C88_window.

(** Refusals: the layer called on values succeeds, fails and names sizes as [pool_shape] (C36) says, for any layer with one kernel size, stride and padding per axis. *)
Lemma reduce_shape_app c : forall ns ps ks ss, length ps = length ns -> length ks = length ns -> length ss = length ns ->
  reduce_shape (ns ++ [Z.of_nat c]) (ps ++ [PPair 0 0]) (ks ++ [1%Z]) (ss ++ [1%Z]) = rmap (fun o => o ++ [Z.of_nat c]) (reduce_shape ns ps ks ss).
Proof.
  induction ns as [|n ns IH]; intros [|p ps] [|k ks] [|s ss] H1 H2 H3; try discriminate.
  - cbn [app reduce_shape unpack bind rmap]. change ((1 <=? 0)%Z || (1 <=? 0)%Z) with false. cbn [bind]. unfold window_count. cbn [fst snd]. rewrite Z.div_1_r. do 2 f_equal. lia.
  - cbn [app reduce_shape length] in *. destruct ((k <=? 0)%Z || (s <=? 0)%Z); [reflexivity|]. destruct (unpack p) as [p'|e]; [|reflexivity]. cbn [bind].
    rewrite IH by lia. destruct (reduce_shape ns ps ks ss); reflexivity.
Qed.
Lemma reduce_shape_pos : forall ns ps ks ss o, reduce_shape ns ps ks ss = Ok o -> map Z.of_nat (map Z.to_nat o) = o /\ length o = length ns /\ exists pads, mapM unpack ps = Ok pads.
Proof.
  induction ns as [|n ns IH]; intros [|p ps] [|k ks] [|s ss] o H; cbn [reduce_shape] in H; try discriminate.
  - injection H as <-. cbn. eauto.
  - destruct ((k <=? 0)%Z || (s <=? 0)%Z); [discriminate|]. apply bind_ok in H as (p' & Hp & H). apply bind_ok in H as (o' & Ho & H). injection H as <-.
    destruct (IH _ _ _ _ Ho) as (I1 & I2 & pads & I3). cbn [map length mapM]. rewrite I1, I2, Hp, I3. split; [|split; [reflexivity|eexists; reflexivity]].
    f_equal. unfold window_count. lia.
Qed.
Lemma ceil_len : forall ns ps ks ss qs, ceil_paddings ns ps ks ss = Ok qs -> length ps = length ns -> length ks = length ns -> length ss = length ns -> length qs = length ns.
Proof.
  induction ns as [|n ns IH]; intros [|p ps] [|k ks] [|s ss] qs H H1 H2 H3; try discriminate; cbn [ceil_paddings] in H; [injection H as <-; reflexivity|].
  apply bind_ok in H as (p' & Hp & H). apply bind_ok in H as (q & Hq & H). apply bind_ok in H as (qs' & Hqs & H). injection H as <-. cbn [length] in *. f_equal. eapply IH; eauto.
Qed.
Theorem C88_refused : forall (A : Type) (op : A -> A -> A) (init : A) m x,
  length (padding m) = nsd m -> length (kernel m) = nsd m -> length (stride m) = nsd m ->
  rmap (fun y => map Z.of_nat (fst y)) (pool_call op init m x) = pool_shape m (map Z.of_nat (fst x)).
Proof.
  intros A op init m [sh x] H1 H2 H3. unfold pool_call, pool_shape. cbn [fst snd]. rewrite Nat.add_1_r.
  destruct sh as [|c ns]; [reflexivity|]. cbn [map length tl]. rewrite map_length. change (Nat.eqb (S (length ns)) (S (nsd m))) with (Nat.eqb (length ns) (nsd m)).
  destruct (Nat.eqb_spec (length ns) (nsd m)) as [E|E]; cbn [negb]; [|reflexivity].
  set (r := if use_ceil m then ceil_paddings (map Z.of_nat ns) (padding m) (kernel m) (stride m) else Ok (padding m)).
  assert (Hr : forall ps, r = Ok ps -> length ps = length ns).
  { intros ps Hps. unfold r in Hps. destruct (use_ceil m); [|congruence]. apply ceil_len in Hps; rewrite ?map_length in *; congruence. }
  destruct r as [ps|e]; [|reflexivity]. specialize (Hr ps eq_refl). cbn [bind]. destruct (check_padding ps (kernel m)) as [u|e]; [|reflexivity]. cbn [bind].
  unfold first_to_last, expand0, reduce_window_nd. cbn [fst snd tl hd map]. rewrite map_app. cbn [map app].
  cbn [reduce_shape unpack bind]. change ((1 <=? 0)%Z || (1 <=? 0)%Z) with false. cbn [bind].
  rewrite (reduce_shape_app c) by (rewrite ?map_length; congruence).
  destruct (reduce_shape (map Z.of_nat ns) ps (kernel m) (stride m)) as [o|e] eqn:HR; [|reflexivity]. cbn [rmap bind].
  apply reduce_shape_pos in HR as (R1 & R2 & pads & R3).
  assert (HM : mapM unpack (PPair 0 0 :: ps ++ [PPair 0 0]) = Ok ((0, 0)%Z :: pads ++ [(0, 0)%Z])).
  { cbn [mapM unpack bind]. replace (mapM unpack (ps ++ [PPair 0 0])) with (Ok (pads ++ [(0, 0)%Z]) : res (list (Z * Z))); [reflexivity|]. symmetry. clear -R3. revert pads R3.
    induction ps as [|p ps IH]; intros pads H; cbn [mapM app] in *; [injection H as <-; reflexivity|]. apply bind_ok in H as (p' & Hp & H). apply bind_ok in H as (l & Hl & H). injection H as <-.
    rewrite Hp, (IH _ Hl). reflexivity. }
  rewrite HM. cbn [bind squeeze0 fst map]. change (Z.to_nat (window_count (Z.of_nat 1) (0, 0)%Z 1 1)) with 1. cbn [bind rmap last_to_first fst snd]. rewrite map_app. cbn [map].
  rewrite last_last, removelast_snoc, Nat2Z.id, R1. reflexivity.
Qed.
Print Assumptions C88_refused.

(** ** Averages *)
Definition Rsum (l : list R) : R := fold_right Rplus 0%R l.
Lemma fold_Rsum l a : fold_left Rplus l a = (a + Rsum l)%R.
Proof. revert a. induction l as [|b l IH]; intros a; cbn [fold_left Rsum fold_right]; [lra|]. rewrite IH. unfold Rsum. lra. Qed.
Lemma choices_length {X} (ls : list (list X)) : length (choices ls) = fold_right Nat.mul 1 (map (@length X) ls).
Proof.
  induction ls as [|l ls IH]; [reflexivity|]. cbn [choices map fold_right]. rewrite <- IH. clear IH.
  induction l as [|a l IHl]; [reflexivity|]. cbn [flat_map length]. rewrite app_length, map_length, IHl. lia.
Qed.
(** C88. An average layer adds what is inside of the window and divides by the size of the kernel, padding included. *)
Theorem C88_avg : forall ceil c axes (x : list nat -> R), Forall ok_axis axes -> forallb (accepted ceil) axes = true ->
  exists y, avg_pool (pool_of ceil axes) (c :: sizes axes, x) = Ok y /\
    fst y = c :: map (fun a => Z.to_nat (out_size ceil a)) axes /\
    forall ch js, ch < c -> length js = length axes ->
      snd y (ch :: js) = (Rsum (map (fun q => x (ch :: q)) (window_at axes js)) / IZR (fold_right Z.mul 1%Z (map ak axes)))%R.
Proof.
  intros ceil c axes x Hok Hacc. destruct (C88_window R Rplus 0%R Rplus_0_r ceil c axes x Hok Hacc) as (y & Hy & Hs & Hv).
  unfold avg_pool. rewrite Hy. cbn [bind]. eexists. split; [reflexivity|]. cbn [fst snd]. split; [exact Hs|].
  intros ch js Hc Hl. rewrite Hv by assumption. rewrite fold_Rsum, Rplus_0_l. reflexivity.
Qed.
Print Assumptions C88_avg.

(** The number of places of an axis in its window. *)
Lemma window_count_le a j : ok_axis a -> length (window_of a j) <= Z.to_nat (ak a).
Proof.
  intros (Hn & Hk & Hs). unfold window_of.
  pose proof (filter_zseq (Z.to_nat (an a)) (ak a) (Z.of_nat j * as_ a - al a) ltac:(lia)) as E.
  apply (f_equal (@length nat)) in E. rewrite map_length in E.
  rewrite (List.filter_ext _ (fun q => (Z.of_nat j * as_ a - al a <=? Z.of_nat q)%Z && (Z.of_nat q <? Z.of_nat j * as_ a - al a + ak a)%Z)).
  - rewrite <- E. etransitivity; [apply filter_le|]. unfold zseq. rewrite !map_length, seq_length. lia.
  - intros q. destruct (Z.leb_spec (Z.of_nat j * as_ a) (Z.of_nat q + al a)), (Z.leb_spec (Z.of_nat j * as_ a - al a) (Z.of_nat q)); try lia;
      destruct (Z.ltb_spec (Z.of_nat q + al a) (Z.of_nat j * as_ a + ak a)), (Z.ltb_spec (Z.of_nat q) (Z.of_nat j * as_ a - al a + ak a)); try lia; reflexivity.
Qed.
Lemma window_count_full a j : ok_axis a -> (al a <= Z.of_nat j * as_ a /\ Z.of_nat j * as_ a + ak a <= an a + al a)%Z ->
  length (window_of a j) = Z.to_nat (ak a).
Proof.
  intros (Hn & Hk & Hs) [H1 H2]. unfold window_of.
  set (lo := Z.to_nat (Z.of_nat j * as_ a - al a)).
  replace (Z.to_nat (an a)) with (lo + (Z.to_nat (ak a) + (Z.to_nat (an a) - lo - Z.to_nat (ak a)))) by lia.
  rewrite !seq_app, !List.filter_app, !app_length.
  assert (F : forall l (b : nat -> bool), (forall q, In q l -> b q = false) -> List.filter b l = []).
  { intros l b. induction l as [|q l IH]; intros H; [reflexivity|]. cbn. rewrite H by (left; reflexivity). apply IH. intros y Hy. apply H. right. exact Hy. }
  rewrite (F (seq 0 lo)) by (intros q Hq; apply in_seq in Hq; apply andb_false_iff; left; apply Z.leb_gt; lia).
  rewrite (F (seq (0 + lo + Z.to_nat (ak a)) _)) by (intros q Hq; apply in_seq in Hq; apply andb_false_iff; right; apply Z.ltb_ge; lia).
  assert (T : forall l (b : nat -> bool), (forall q, In q l -> b q = true) -> List.filter b l = l).
  { intros l b. induction l as [|q l IH]; intros H; [reflexivity|]. cbn. rewrite H by (left; reflexivity). f_equal. apply IH. intros y Hy. apply H. right. exact Hy. }
  rewrite T.
  - rewrite seq_length. cbn. lia.
  - intros q Hq. apply in_seq in Hq. apply andb_true_iff. split; [apply Z.leb_le|apply Z.ltb_lt]; lia.
Qed.
(** C88. A window without padding: the average of its entries; any window has at most the size of the kernel. *)
Theorem C88_avg_mean : forall axes js, Forall ok_axis axes -> length js = length axes ->
  (Z.of_nat (length (window_at axes js)) <= fold_right Z.mul 1 (map ak axes))%Z /\
  ((forall a j, In (a, j) (List.combine axes js) -> al a <= Z.of_nat j * as_ a /\ Z.of_nat j * as_ a + ak a <= an a + al a)%Z ->
   Z.of_nat (length (window_at axes js)) = fold_right Z.mul 1%Z (map ak axes)).
Proof.
  intros axes js Hok Hl. unfold window_at. rewrite choices_length, map_map.
  revert js Hl. induction Hok as [|a axes Ha Hok IH]; intros [|j js] Hl; cbn in Hl; try lia; [split; [cbn; lia|reflexivity]|].
  destruct (IH js ltac:(lia)) as [I1 I2]. cbn [List.combine map fold_right fst snd]. rewrite Nat2Z.inj_mul.
  pose proof (window_count_le a j Ha) as HL. destruct Ha as (Hn & Hk & Hs). split.
  - apply Z.mul_le_mono_nonneg; lia.
  - intros H. rewrite I2 by (intros a' j' Hin; apply H; right; exact Hin).
    rewrite window_count_full; [lia|repeat split; assumption|]. apply H. left. reflexivity.
Qed.
Print Assumptions C88_avg_mean.

(** ** Maxima *)
(** C88. A maximum layer takes the greatest entry inside of the window; minus infinity if there is none. *)
Theorem C88_max : forall ceil c axes (x : list nat -> R), Forall ok_axis axes -> forallb (accepted ceil) axes = true ->
  exists y, max_pool (pool_of ceil axes) (c :: sizes axes, fun idx => Fin (x idx)) = Ok y /\
    fst y = c :: map (fun a => Z.to_nat (out_size ceil a)) axes /\
    forall ch js, ch < c -> length js = length axes ->
      (window_at axes js = [] -> snd y (ch :: js) = NegInf) /\
      (window_at axes js <> [] -> exists q, In q (window_at axes js) /\ snd y (ch :: js) = Fin (x (ch :: q)) /\
         forall q', In q' (window_at axes js) -> (x (ch :: q') <= x (ch :: q))%R).
Proof.
  intros ceil c axes x Hok Hacc. assert (Hu : forall a, ext_max a NegInf = a) by (intros [|r]; reflexivity).
  destruct (C88_window ext ext_max NegInf Hu ceil c axes (fun idx => Fin (x idx)) Hok Hacc) as (y & Hy & Hs & Hv).
  exists y. split; [exact Hy|]. split; [exact Hs|]. intros ch js Hc Hl. rewrite Hv by assumption.
  assert (G : forall l a, exists m, fold_left ext_max (map (fun q => Fin (x (ch :: q))) l) (Fin a) = Fin m /\
     (a <= m)%R /\ (forall q, In q l -> (x (ch :: q) <= m)%R) /\ (m = a \/ exists q, In q l /\ m = x (ch :: q))).
  { induction l as [|q l IH]; intros a; cbn [map fold_left].
    - exists a. split; [reflexivity|]. split; [lra|]. split; [intros q []|left; reflexivity].
    - cbn [ext_max]. destruct (IH (Rmax a (x (ch :: q)))) as (m & -> & H1 & H2 & H3). exists m. split; [reflexivity|].
      pose proof (Rmax_l a (x (ch :: q))). pose proof (Rmax_r a (x (ch :: q))). split; [lra|]. split.
      + intros q' [<-|Hq']; [lra|apply H2; exact Hq'].
      + destruct H3 as [->|(q' & Hq' & ->)]; [|right; exists q'; split; [right; exact Hq'|reflexivity]].
        unfold Rmax. destruct (Rle_dec a (x (ch :: q))); [right; exists q; split; [left; reflexivity|reflexivity]|left; reflexivity]. }
  split.
  - intros ->. reflexivity.
  - intros HN. destruct (window_at axes js) as [|q0 l]; [congruence|]. cbn [map fold_left ext_max].
    destruct (G l (x (ch :: q0))) as (m & -> & H1 & H2 & H3). destruct H3 as [->|(q & Hq & ->)].
    + exists q0. split; [left; reflexivity|]. split; [reflexivity|]. intros q' [<-|Hq']; [lra|apply H2; exact Hq'].
    + exists q. split; [right; exact Hq|]. split; [reflexivity|]. intros q' [<-|Hq']; [lra|apply H2; exact Hq'].
Qed.
Print Assumptions C88_max.

(** Membership in a window, spelt out. *)
Lemma In_choices {X} (ls : list (list X)) q : In q (choices ls) <-> Forall2 (fun a l => In a l) q ls.
Proof.
  revert q. induction ls as [|l ls IH]; intros q; cbn [choices].
  - split; [intros [<-|[]]; constructor|]. intros H. inversion H. left. reflexivity.
  - rewrite in_flat_map. split.
    + intros (a & Ha & Hq). apply in_map_iff in Hq as (q' & <- & Hq'). constructor; [exact Ha|]. apply IH. exact Hq'.
    + intros H. inversion H as [|a ? q' ? Ha Hq']; subst. exists a. split; [exact Ha|]. apply in_map. apply IH. exact Hq'.
Qed.
Theorem C88_window_places : forall axes js q, length js = length axes ->
  (In q (window_at axes js) <-> Forall2 (fun i p => let '(a, j) := p in
     (Z.of_nat i < an a /\ Z.of_nat j * as_ a <= Z.of_nat i + al a < Z.of_nat j * as_ a + ak a)%Z) q (List.combine axes js)).
Proof.
  intros axes js q _. unfold window_at. rewrite In_choices.
  assert (G : forall i p, In i (window_of (fst p) (snd p)) <-> (let '(a, j) := p in
     (Z.of_nat i < an a /\ Z.of_nat j * as_ a <= Z.of_nat i + al a < Z.of_nat j * as_ a + ak a)%Z)).
  { intros i [a j]. cbn [fst snd]. unfold window_of. rewrite filter_In, in_seq, andb_true_iff, Z.leb_le, Z.ltb_lt. lia. }
  generalize (List.combine axes js) as l. intros l. revert q. induction l as [|p l IH]; intros q; cbn [map].
  - split; intros H; inversion H; constructor.
  - split; intros H; inversion H; subst; constructor; try (apply G; assumption); apply IH; assumption.
Qed.
Print Assumptions C88_window_places.

(** ** Adaptive layers *)
(** The part number [k] of [t] parts of an axis of size [n]: the first [n mod t] parts are longer by one. *)
Definition part (n t k : nat) : list nat := seq (k * (n / t) + Nat.min k (n mod t)) (n / t + (if Nat.ltb k (n mod t) then 1 else 0)).
(** The multi-indices of block number [ks], later axes varying slower. *)
Fixpoint block (ls : list (list nat)) : list (list nat) :=
  match ls with [] => [[]] | l :: ls => flat_map (fun q => map (fun a => a :: q) l) (block ls) end.

Lemma skipn_add {A} a b (x : list A) : skipn a (skipn b x) = skipn (a + b) x.
Proof.
  revert x. induction b as [|b IH]; intros x; [rewrite Nat.add_0_r; reflexivity|].
  destruct x as [|y x]; [rewrite !skipn_nil; reflexivity|]. rewrite Nat.add_succ_r. cbn [skipn]. apply IH.
Qed.
Lemma rows_nth {A} q : forall m k (x : list A), k < m -> nth_error (rows m q x) k = Some (firstn q (skipn (k * q) x)).
Proof.
  induction m as [|m IH]; intros [|k] x H; try lia; cbn [rows nth_error]; [reflexivity|]. rewrite IH by lia. rewrite skipn_add. do 3 f_equal. lia.
Qed.
Lemma seg_seq {A} (y : nat -> A) n s l : s + l <= n -> firstn l (skipn s (map y (seq 0 n))) = map y (seq s l).
Proof.
  intros H. rewrite skipn_map, firstn_map. f_equal. replace n with (s + (l + (n - s - l))) by lia. rewrite !seq_app.
  rewrite skipn_app, skipn_all2, seq_length by (rewrite seq_length; lia). rewrite Nat.sub_diag. cbn [skipn app Nat.add].
  rewrite firstn_app, firstn_all2, seq_length, Nat.sub_diag by (rewrite seq_length; lia). cbn [firstn]. apply app_nil_r.
Qed.
(** One axis. *)
Lemma part_bound n t k : 0 < t -> k < t -> k * (n / t) + Nat.min k (n mod t) + (n / t + (if Nat.ltb k (n mod t) then 1 else 0)) <= n.
Proof.
  intros Ht Hk. pose proof (Nat.div_mod n t ltac:(lia)) as E. pose proof (Nat.mod_upper_bound n t ltac:(lia)) as B.
  set (q := n / t) in *. set (h := n mod t) in *. assert (M : (k + 1) * q <= t * q) by (apply Nat.mul_le_mono_r; lia).
  destruct (Nat.ltb_spec k h) as [L|L]; [rewrite Nat.min_l by lia|rewrite Nat.min_r by lia]; lia.
Qed.
Lemma adaptive1d_part {A} (opv : list A -> A) n t (y : nat -> A) k : 0 < t <= n -> k < t ->
  exists out, adaptive1d opv (fun a => a) t (map y (seq 0 n)) = Ok out /\ nth_error out k = Some (opv (map y (part n t k))).
Proof.
  intros Ht Hk. unfold adaptive1d. destruct (Nat.eqb_spec t 0) as [?|_]; [lia|]. rewrite map_length, seq_length.
  pose proof (part_bound n t k ltac:(lia) Hk) as PB. unfold part.
  rewrite <- (seg_seq y n _ _ PB).
  set (x := map y (seq 0 n)). assert (Hx : length x = n) by (unfold x; rewrite map_length, seq_length; reflexivity).
  set (q := n / t) in *. set (h := n mod t) in *.
  assert (Hn : n = t * q + h) by (apply Nat.div_mod; lia).
  assert (Hh : h < t) by (apply Nat.mod_upper_bound; lia).
  assert (Hq : 0 < q) by (unfold q; apply Nat.div_str_pos; lia).
  destruct (Nat.eqb_spec h 0) as [E|E]; cbn [negb].
  - rewrite (reshape_q_ok q t) by (auto; lia). cbn [bind]. rewrite map_id. eexists. split; [reflexivity|].
    rewrite nth_error_map, rows_nth by exact Hk. cbn [option_map]. rewrite E, Nat.min_0_r, !Nat.add_0_r. reflexivity.
  - set (e := h * (q + 1)).
    assert (He : e <= n) by (unfold e; nia).
    rewrite (reshape_m_ok h (q + 1)) by (rewrite ?firstn_length; unfold e in *; lia). cbn [bind].
    rewrite (reshape_q_ok q (t - h)) by (auto; rewrite skipn_length; unfold e; nia). cbn [bind].
    eexists. split; [reflexivity|]. destruct (Nat.ltb_spec k h) as [L|L].
    + rewrite Nat.min_l by lia. rewrite nth_error_app1 by (rewrite map_length, rows_len; lia). rewrite nth_error_map, rows_nth by lia. cbn [option_map].
      do 2 f_equal. rewrite skipn_firstn_comm, firstn_firstn. rewrite Nat.min_l by (unfold e; nia). do 2 f_equal. lia.
    + rewrite Nat.min_r by lia. rewrite nth_error_app2 by (rewrite map_length, rows_len; lia). rewrite map_length, rows_len.
      rewrite nth_error_map, rows_nth by lia. cbn [option_map]. do 2 f_equal. rewrite skipn_add, Nat.add_0_r. do 2 f_equal. unfold e. nia.
Qed.

Lemma nth_upd_same {X} (d : X) k : forall i l, i < length l -> nth i (upd i k l) d = k.
Proof. induction i as [|i IH]; intros [|a l] H; cbn in H; try lia; [reflexivity|]. change (nth i (upd i k l) d = k). apply IH. lia. Qed.

(** Operations that may be done on equal parts first. *)
Definition two_stage {A} (opv : list A -> A) : Prop :=
  forall (ls : list (list A)) m, 0 < m -> ls <> [] -> Forall (fun l => length l = m) ls -> opv (map opv ls) = opv (concat ls).
Section Adaptive.
  Context {A : Type} (opv : list A -> A).
  Hypothesis one : forall a, opv [a] = a.
  Hypothesis stages : two_stage opv.

  (** The multi-indices agreeing with [idx] before axis [i] and in block [idx] from there on. *)
  Fixpoint blk (i : nat) (ts : list nat) (sh idx : list nat) : list (list nat) :=
    match ts with
    | [] => [idx]
    | t :: ts => flat_map (fun p => map (fun k => upd i k p) (part (nth i sh 0) t (nth i idx 0))) (blk (S i) ts sh idx)
    end.
  Lemma blk_frame ts : forall i sh idx, i + length ts <= length idx -> forall p, In p (blk i ts sh idx) ->
    length p = length idx /\ forall j, j < i -> nth j p 0 = nth j idx 0.
  Proof.
    induction ts as [|t ts IH]; intros i sh idx Hl p Hp; cbn [blk] in Hp; cbn in Hl.
    - destruct Hp as [<-|[]]. auto.
    - apply in_flat_map in Hp as (p' & Hp' & Hk). apply in_map_iff in Hk as (k & <- & Hk).
      destruct (IH (S i) sh idx ltac:(lia) p' Hp') as [L N]. split; [rewrite upd_len; lia|].
      intros j Hj. rewrite nth_upd_other by lia. apply N. lia.
  Qed.
  Lemma blk_nonempty ts : forall i sh idx, (forall j t, nth_error ts j = Some t -> 0 < t <= nth (i + j) sh 0) -> blk i ts sh idx <> [].
  Proof.
    induction ts as [|t ts IH]; intros i sh idx H; cbn [blk]; [discriminate|].
    assert (Ht := H 0 t eq_refl). rewrite Nat.add_0_r in Ht.
    assert (IH' : blk (S i) ts sh idx <> []) by (apply IH; intros j t' Hj; specialize (H (S j) t' Hj); replace (S i + j) with (i + S j) by lia; exact H).
    destruct (blk (S i) ts sh idx) as [|p l]; [congruence|]. cbn [flat_map]. unfold part.
    assert (0 < nth i sh 0 / t) by (apply Nat.div_str_pos; lia).
    destruct (nth i sh 0 / t) as [|d]; [lia|]. cbn. discriminate.
  Qed.
  Lemma blk_sh ts : forall i sh sh' idx, (forall j, i <= j -> nth j sh 0 = nth j sh' 0) -> blk i ts sh idx = blk i ts sh' idx.
  Proof.
    induction ts as [|t ts IH]; intros i sh sh' idx H; cbn [blk]; [reflexivity|]. rewrite (IH (S i) sh sh') by (intros j Hj; apply H; lia).
    rewrite (H i) by lia. reflexivity.
  Qed.

  Lemma adaptive_axes_block ts : forall i x, 0 < i -> i + length ts = length (fst x) ->
    (forall j t, nth_error ts j = Some t -> 0 < t <= nth (i + j) (fst x) 0) ->
    exists z, adaptive_axes opv (fun a => a) (length (fst x)) i ts x = Ok z /\
      fst z = firstn i (fst x) ++ ts /\
      forall idx, length idx = length (fst x) -> (forall j t, nth_error ts j = Some t -> nth (i + j) idx 0 < t) ->
        snd z idx = opv (map (snd x) (blk i ts (fst x) idx)).
  Proof.
    induction ts as [|t ts IH]; intros i x Hi Hl Hts; cbn [adaptive_axes].
    - exists x. split; [reflexivity|]. cbn in Hl. rewrite app_nil_r, firstn_all2 by lia. split; [reflexivity|]. intros idx _ _. cbn [blk map]. symmetry. apply one.
    - cbn in Hl. assert (Ht : 0 < t <= nth i (fst x) 0) by (specialize (Hts 0 t eq_refl); rewrite Nat.add_0_r in Hts; auto).
      destruct (pools_axis opv (fun a => a) t (length (fst x)) i ltac:(lia) (fst x) eq_refl Ht) as [H1 H2].
      unfold apply_fun. rewrite H1. cbn [bind].
      set (y := (upd i t (fst x), fval (axis_fun opv (fun a => a) (length (fst x)) i t) (fst x) (snd x))).
      destruct (IH (S i) y) as (z & Hz & Hsz & Hv).
      + lia.
      + cbn [fst y]. rewrite upd_len; lia.
      + intros j t' Hj. cbn [fst y]. rewrite nth_upd_other by lia. specialize (Hts (S j) t' Hj). replace (S i + j) with (i + S j) by lia. auto.
      + cbn [fst y] in Hz, Hsz, Hv. rewrite upd_len in Hz, Hv by lia. exists z. split; [exact Hz|]. split.
        * rewrite Hsz. unfold upd. rewrite firstn_app, firstn_length, firstn_firstn. replace (S i - Nat.min i (length (fst x))) with 1 by lia.
          replace (Nat.min (S i) i) with i by lia. cbn. rewrite <- app_assoc. reflexivity.
        * intros idx Hil Hit. rewrite Hv.
          2: exact Hil.
          2: { intros j t' Hj. specialize (Hit (S j) t' Hj). replace (S i + j) with (i + S j) by lia. exact Hit. }
          rewrite (blk_sh ts (S i) (upd i t (fst x)) (fst x)) by (intros j Hj; apply nth_upd_other; lia).
          set (B := blk (S i) ts (fst x) idx). cbn [snd y].
          assert (HB : forall p, In p B -> fval (axis_fun opv (fun a => a) (length (fst x)) i t) (fst x) (snd x) p =
                        opv (map (snd x) (map (fun k => upd i k p) (part (nth i (fst x) 0) t (nth i idx 0))))).
          { intros p Hp. destruct (blk_frame ts (S i) (fst x) idx ltac:(lia) p Hp) as [Lp Np]. specialize (Np i ltac:(lia)).
            assert (Hk : nth i idx 0 < t) by (specialize (Hit 0 t eq_refl); rewrite Nat.add_0_r in Hit; exact Hit).
            specialize (H2 (snd x) p ltac:(lia) ltac:(lia)). rewrite Np in H2. unfold val in H2.
            destruct (adaptive1d_part opv (nth i (fst x) 0) t (fun k => snd x (upd i k p)) (nth i idx 0) Ht Hk) as (out & E & Hn).
            rewrite E, Hn in H2. injection H2 as ->. rewrite map_map. reflexivity. }
          rewrite (map_ext_in _ _ _ HB). cbn [blk]. fold B.
          rewrite <- (map_map (fun p => map (snd x) (map (fun k => upd i k p) (part (nth i (fst x) 0) t (nth i idx 0)))) opv).
          rewrite (stages _ (length (part (nth i (fst x) 0) t (nth i idx 0)))).
          -- f_equal. rewrite flat_map_concat_map, concat_map, !map_map. reflexivity.
          -- unfold part. rewrite seq_length. assert (0 < nth i (fst x) 0 / t) by (apply Nat.div_str_pos; lia). lia.
          -- assert (HN : B <> []).
             { apply blk_nonempty. intros j t' Hj. specialize (Hts (S j) t' Hj). replace (S i + j) with (i + S j) by lia. exact Hts. }
             destruct B; [congruence|discriminate].
          -- apply Forall_forall. intros l Hin. apply in_map_iff in Hin as (p & <- & _). rewrite !map_length. reflexivity.
  Qed.
End Adaptive.
Definition parts (ns ts ks : list nat) : list (list nat) :=
  map (fun p => part (fst (fst p)) (snd (fst p)) (snd p)) (List.combine (List.combine ns ts) ks).
Lemma blk_block ts : forall pre ns ks sh, length ns = length ts -> length ks = length ts -> (forall j, j < length ts -> nth (length pre + j) sh 0 = nth j ns 0) ->
  blk (length pre) ts sh (pre ++ ks) = map (app pre) (block (parts ns ts ks)).
Proof.
  induction ts as [|t ts IH]; intros pre [|n ns] [|k ks] sh Hn Hk Hs; cbn in Hn, Hk; try lia; [reflexivity|].
  unfold parts. cbn [List.combine map block fst snd blk]. fold (parts ns ts ks).
  assert (Hp : S (length pre) = length (pre ++ [k])) by (rewrite app_length; cbn; lia).
  rewrite Hp. replace (pre ++ k :: ks) with ((pre ++ [k]) ++ ks) by (rewrite <- app_assoc; reflexivity).
  rewrite (IH (pre ++ [k]) ns ks sh) by (try lia; intros j Hj; rewrite <- Hp; specialize (Hs (S j) ltac:(cbn; lia)); cbn [nth] in Hs; rewrite <- Hs; f_equal; lia).
  assert (Hn0 : nth (length pre) sh 0 = n) by (specialize (Hs 0 ltac:(cbn; lia)); rewrite Nat.add_0_r in Hs; exact Hs).
  assert (Hk0 : nth (length pre) ((pre ++ [k]) ++ ks) 0 = k).
  { rewrite <- app_assoc, app_nth2, Nat.sub_diag by lia. reflexivity. }
  rewrite Hn0, Hk0. rewrite flat_map_concat_map, map_map, <- flat_map_concat_map. rewrite !flat_map_concat_map, concat_map, map_map. f_equal.
  apply map_ext. intros q. rewrite map_map. apply map_ext. intros a. unfold upd.
  rewrite firstn_app, firstn_app, Nat.sub_diag, firstn_all2 by lia.
  replace (length pre - length (pre ++ [k])) with 0 by (rewrite app_length; lia). cbn [firstn]. rewrite !app_nil_r. f_equal. f_equal.
  rewrite skipn_app, skipn_all2 by (rewrite app_length; cbn; lia). rewrite <- Hp, Nat.sub_diag. reflexivity.
Qed.

(** C88. For operations that may be done in stages, the layer applies the operation to the entries of a block, of every channel. *)
Lemma adaptive_block : forall (A : Type) (opv : list A -> A), (forall a, opv [a] = a) -> two_stage opv ->
  forall c ns ts (x : list nat -> A), length ns = length ts -> (forall j n t, nth_error ns j = Some n -> nth_error ts j = Some t -> 0 < t <= n) ->
  exists y, adaptive_pool opv (fun a => a) ts (c :: ns, x) = Ok y /\ fst y = c :: ts /\
    forall ch ks, length ks = length ts -> (forall j k t, nth_error ks j = Some k -> nth_error ts j = Some t -> k < t) ->
      snd y (ch :: ks) = opv (map (fun q => x (ch :: q)) (block (parts ns ts ks))).
Proof.
  intros A opv H1 H2 c ns ts x Hl Hts. unfold adaptive_pool. cbn [fst length]. rewrite Hl, Nat.eqb_refl. cbn [negb].
  destruct (adaptive_axes_block opv H1 H2 ts 1 (c :: ns, x)) as (z & Hz & Hs & Hv).
  - lia.
  - cbn. lia.
  - intros j t Hj. cbn [Nat.add fst nth]. destruct (nth_error_ge_ex ns j) as [n Hn]; [apply nth_error_lt in Hj; lia|].
    rewrite (nth_error_nth ns j 0 Hn). eauto.
  - cbn [fst length] in Hz, Hv. rewrite Hl in Hz. exists z. split; [exact Hz|]. split; [exact Hs|].
    intros ch ks Hk Hkt. rewrite Hv.
    + pose proof (blk_block ts [ch] ns ks (c :: ns) Hl Hk) as E. cbn [length app] in E. rewrite E by (intros; reflexivity).
      cbn [snd]. rewrite map_map. reflexivity.
    + cbn. lia.
    + intros j t Hj. cbn [Nat.add nth]. destruct (nth_error_ge_ex ks j) as [k Hk0]; [apply nth_error_lt in Hj; lia|].
      rewrite (nth_error_nth ks j 0 Hk0). eauto.
Qed.

Lemma Rsum_app l l' : Rsum (l ++ l') = (Rsum l + Rsum l')%R.
Proof. unfold Rsum. induction l as [|a l IH]; cbn [app fold_right]; [lra|]. rewrite IH. lra. Qed.
Lemma mean_spec l : mean l = (Rsum l / INR (length l))%R.
Proof. unfold mean. rewrite fold_Rsum, Rplus_0_l. reflexivity. Qed.
Lemma mean_stages : two_stage mean.
Proof.
  intros ls m Hm Hne HF. rewrite !mean_spec, map_length.
  assert (E : length (concat ls) = m * length ls /\ (Rsum (map mean ls) * INR m)%R = Rsum (concat ls)).
  { clear Hne. induction HF as [|l ls Hl HF [I1 I2]]; [split; [cbn [concat length]; lia|unfold Rsum; cbn [map concat fold_right]; lra]|]. cbn [concat map length]. rewrite app_length, I1, Rsum_app, <- I2. split; [lia|].
    change (Rsum (mean l :: map mean ls)) with (mean l + Rsum (map mean ls))%R. rewrite mean_spec, Hl. field. apply not_0_INR. lia. }
  destruct E as [-> <-]. rewrite mult_INR. field. split; apply not_0_INR; destruct ls; [congruence|discriminate|congruence|lia].
Qed.
Lemma block_nonempty ns ts ks : length ns = length ts -> length ks = length ts ->
  (forall j n t, nth_error ns j = Some n -> nth_error ts j = Some t -> 0 < t <= n) -> block (parts ns ts ks) <> [].
Proof.
  revert ns ks. induction ts as [|t ts IH]; intros [|n ns] [|k ks] Hn Hk H; cbn in Hn, Hk; try lia; [discriminate|].
  unfold parts. cbn [List.combine map block fst snd]. fold (parts ns ts ks).
  assert (Ht := H 0 n t eq_refl eq_refl).
  assert (IH' := IH ns ks ltac:(lia) ltac:(lia) (fun j => H (S j))).
  destruct (block (parts ns ts ks)) as [|p l]; [congruence|]. cbn [flat_map]. unfold part.
  assert (0 < n / t) by (apply Nat.div_str_pos; lia).
  destruct (n / t) as [|d]; [lia|]. cbn. discriminate.
Qed.
(** C88. The adaptive average is the mean of the block. *)
Theorem C88_adaptive_avg : forall c ns ts (x : list nat -> R), length ns = length ts ->
  (forall j n t, nth_error ns j = Some n -> nth_error ts j = Some t -> 0 < t <= n) ->
  exists y, adaptive_avg_pool ts (c :: ns, x) = Ok y /\ fst y = c :: ts /\
    forall ch ks, length ks = length ts -> (forall j k t, nth_error ks j = Some k -> nth_error ts j = Some t -> k < t) ->
      let b := block (parts ns ts ks) in
      b <> [] /\ snd y (ch :: ks) = (Rsum (map (fun q => x (ch :: q)) b) / INR (length b))%R.
Proof.
  intros c ns ts x Hl Hts.
  assert (one : forall a, mean [a] = a) by (intros a; rewrite mean_spec; unfold Rsum; cbn [fold_right length INR]; field).
  destruct (adaptive_block R mean one mean_stages c ns ts x Hl Hts) as (y & Hy & Hs & Hv).
  exists y. split; [exact Hy|]. split; [exact Hs|]. intros ch ks Hk Hkt b. split.
  - apply block_nonempty; assumption.
  - rewrite Hv by assumption. rewrite mean_spec, map_length. reflexivity.
Qed.
Print Assumptions C88_adaptive_avg.

Lemma maximum_spec l : l <> [] -> In (maximum l) l /\ forall a, In a l -> (a <= maximum l)%R.
Proof.
  destruct l as [|a l]; [congruence|]. intros _. cbn [maximum].
  assert (G : forall l a, (a <= fold_left Rmax l a)%R /\ (forall b, In b l -> (b <= fold_left Rmax l a)%R) /\ (fold_left Rmax l a = a \/ In (fold_left Rmax l a) l)).
  { clear. induction l as [|b l IH]; intros a; cbn [fold_left].
    - split; [lra|]. split; [intros b []|left; reflexivity].
    - destruct (IH (Rmax a b)) as (H1 & H2 & H3). pose proof (Rmax_l a b). pose proof (Rmax_r a b). split; [lra|]. split.
      + intros b' [<-|Hb]; [lra|apply H2; exact Hb].
      + destruct H3 as [->|H3]; [|right; right; exact H3]. unfold Rmax. destruct (Rle_dec a b); [right; left; reflexivity|left; reflexivity]. }
  destruct (G l a) as (H1 & H2 & H3). split.
  - destruct H3 as [->|H3]; [left; reflexivity|right; exact H3].
  - intros b [<-|Hb]; [exact H1|apply H2; exact Hb].
Qed.
Lemma maximum_unique l m : In m l -> (forall a, In a l -> (a <= m)%R) -> maximum l = m.
Proof.
  intros H1 H2. assert (HN : l <> []) by (intros ->; destruct H1). destruct (maximum_spec l HN) as [M1 M2].
  apply Rle_antisym; [apply H2; exact M1|apply M2; exact H1].
Qed.
Lemma max_stages : two_stage maximum.
Proof.
  intros ls m Hm Hne HF. symmetry. apply maximum_unique.
  - destruct (maximum_spec (map maximum ls)) as [H1 _]; [destruct ls; [congruence|discriminate]|].
    apply in_map_iff in H1 as (l & <- & Hl). apply in_concat. exists l. split; [exact Hl|].
    apply maximum_spec. rewrite Forall_forall in HF. specialize (HF l Hl). intros ->. cbn in HF. lia.
  - intros a Ha. apply in_concat in Ha as (l & Hl & Ha).
    assert (l <> []) by (intros ->; destruct Ha). destruct (maximum_spec l H) as [_ H2].
    apply Rle_trans with (maximum l); [apply H2; exact Ha|].
    destruct (maximum_spec (map maximum ls)) as [_ H4]; [destruct ls; [congruence|discriminate]|]. apply H4. apply in_map. exact Hl.
Qed.
(** C88. The adaptive maximum is the greatest entry of the block. *)
Theorem C88_adaptive_max : forall c ns ts (x : list nat -> R), length ns = length ts ->
  (forall j n t, nth_error ns j = Some n -> nth_error ts j = Some t -> 0 < t <= n) ->
  exists y, adaptive_max_pool ts (c :: ns, x) = Ok y /\ fst y = c :: ts /\
    forall ch ks, length ks = length ts -> (forall j k t, nth_error ks j = Some k -> nth_error ts j = Some t -> k < t) ->
      exists q, In q (block (parts ns ts ks)) /\ snd y (ch :: ks) = x (ch :: q) /\
        forall q', In q' (block (parts ns ts ks)) -> (x (ch :: q') <= x (ch :: q))%R.
Proof.
  intros c ns ts x Hl Hts.
  destruct (adaptive_block R maximum (fun a => eq_refl) max_stages c ns ts x Hl Hts) as (y & Hy & Hs & Hv).
  exists y. split; [exact Hy|]. split; [exact Hs|]. intros ch ks Hk Hkt. rewrite Hv by assumption.
  destruct (maximum_spec (map (fun q => x (ch :: q)) (block (parts ns ts ks)))) as [M1 M2].
  - pose proof (block_nonempty ns ts ks Hl Hk Hts) as HN. destruct (block (parts ns ts ks)); [congruence|discriminate].
  - apply in_map_iff in M1 as (q & Eq & Hq). exists q. split; [exact Hq|]. split; [symmetry; exact Eq|].
    intros q' Hq'. rewrite Eq. apply M2. apply (in_map (fun q => x (ch :: q))). exact Hq'.
Qed.
Print Assumptions C88_adaptive_max.
(** C88. The blocks: each place of the input belongs to exactly one part of its axis, and the block consists of the places whose
    coordinates are in the parts. *)
Theorem C88_blocks : forall ns ts ks q,
  (In q (block (parts ns ts ks)) <-> Forall2 (fun i l => In i l) q (parts ns ts ks)) /\
  (forall n t i, 0 < t -> i < n -> exists k, k < t /\ forall k', k' < t -> (In i (part n t k') <-> k' = k)).
Proof.
  intros ns ts ks q. split.
  - generalize (parts ns ts ks) as ls. intros ls. revert q. induction ls as [|l ls IH]; intros q; cbn [block].
    + split; [intros [<-|[]]; constructor|]. intros H. inversion H. left. reflexivity.
    + rewrite in_flat_map. split.
      * intros (q' & Hq' & Hq). apply in_map_iff in Hq as (a & <- & Ha). constructor; [exact Ha|]. apply IH. exact Hq'.
      * intros H. inversion H as [|a ? q' ? Ha Hq']; subst. exists q'. split; [apply IH; exact Hq'|]. apply (in_map (fun a => a :: q')). exact Ha.
  - intros n t i Ht Hi. unfold part. pose proof (Nat.div_mod n t ltac:(lia)) as E. pose proof (Nat.mod_upper_bound n t ltac:(lia)) as B.
    set (q0 := n / t) in *. set (h := n mod t) in *.
    assert (P : forall k, In i (seq (k * q0 + Nat.min k h) (q0 + (if Nat.ltb k h then 1 else 0))) <->
                k * q0 + Nat.min k h <= i < S k * q0 + Nat.min (S k) h).
    { intros k. rewrite in_seq. destruct (Nat.ltb_spec k h); [rewrite !Nat.min_l by lia|rewrite !Nat.min_r by lia]; lia. }
    assert (Mono : forall k k', k <= k' -> k * q0 + Nat.min k h <= k' * q0 + Nat.min k' h) by (intros k k' L; nia).
    assert (Ex : forall m, i < m * q0 + Nat.min m h -> exists k, k < m /\ k * q0 + Nat.min k h <= i < S k * q0 + Nat.min (S k) h).
    { induction m as [|m IH]; intros H; [cbn in H; lia|].
      destruct (Nat.lt_ge_cases i (m * q0 + Nat.min m h)) as [L|L]; [destruct (IH L) as (k & Hk & Hb); exists k; split; [lia|exact Hb]|].
      exists m. split; [lia|]. split; assumption. }
    destruct (Ex t) as (k & Hk & Hb); [rewrite Nat.min_r by lia; lia|]. exists k. split; [exact Hk|]. intros k' Hk'. rewrite P. split.
    + intros Hb'. destruct (Nat.lt_trichotomy k k') as [L|[L|L]]; [|lia|].
      * pose proof (Mono (S k) k' L). lia.
      * pose proof (Mono (S k') k L). lia.
    + intros ->. exact Hb.
Qed.
Print Assumptions C88_blocks.

(** C88. No window lies in the padding alone, if the paddings are less than the kernel sizes ... *)
Theorem C88_window_nonempty : forall ceil axes js, Forall ok_axis axes -> forallb (accepted ceil) axes = true -> length js = length axes ->
  Forall (fun a => 0 < an a /\ al a < ak a /\ ar a < ak a)%Z axes ->
  Forall2 (fun j a => Z.of_nat j < out_size ceil a)%Z js axes -> window_at axes js <> [].
Proof.
  intros ceil axes js Hok Hacc Hl Hp Hj E.
  assert (exists q, In q (window_at axes js)) as [q Hq]; [|rewrite E in Hq; destruct Hq]. clear E.
  enough (exists q, Forall2 (fun i p => let '(a, j) := p in
     (Z.of_nat i < an a /\ Z.of_nat j * as_ a <= Z.of_nat i + al a < Z.of_nat j * as_ a + ak a)%Z) q (List.combine axes js)) as [q Hq].
  { exists q. apply C88_window_places; assumption. }
  clear Hl. revert Hok Hacc Hp. induction Hj as [|j a js axes Hj HF IH]; intros Hok Hacc Hp.
  - exists []. constructor.
  - inversion Hok as [|? ? (Hn & Hk & Hs) Hok']; subst. inversion Hp as [|? ? (Pn & Pl & Pr) Hp']; subst.
    cbn [forallb] in Hacc. apply andb_prop in Hacc as [Ha Hacc].
    destruct (IH Hok' Hacc Hp') as [q Hq]. exists (Z.to_nat (Z.max 0 (Z.of_nat j * as_ a - al a)) :: q). cbn [List.combine]. constructor; [|exact Hq].
    assert (Hlt : (Z.of_nat j * as_ a < an a + al a)%Z).
    { unfold accepted, extra in Ha. apply Z.leb_le in Ha. unfold out_size in Hj.
      pose proof (Z.div_mod (room a) (as_ a) ltac:(lia)) as D. pose proof (Z.mod_pos_bound (room a) (as_ a) Hs) as M.
      destruct ceil; cbn [andb] in Ha.
      - pose proof (cdiv_spec (room a) (as_ a) Hs) as C.
        destruct (Z.eqb_spec (room a mod as_ a) 0) as [E|E]; cbn [negb] in Ha; unfold room in *.
        + assert (cdiv (an a + al a + ar a - ak a) (as_ a) = (an a + al a + ar a - ak a) / as_ a)%Z by nia. nia.
        + assert ((Z.of_nat j - 1) * as_ a < an a + al a + ar a - ak a)%Z by nia. nia.
      - unfold room in *. assert (Z.of_nat j * as_ a <= an a + al a + ar a - ak a)%Z by nia. lia. }
    assert (0 <= Z.of_nat j * as_ a)%Z by nia. lia.
Qed.
Print Assumptions C88_window_nonempty.
(** ... whereas padding of the size of the kernel is accepted, and then the maximum of the first window is minus infinity. *)
Theorem C88_window_in_padding : exists axes, Forall ok_axis axes /\ forallb (accepted false) axes = true /\ Forall (fun a => 0 < an a)%Z axes /\
  forall x : list nat -> R, exists y, max_pool (pool_of false axes) (1 :: sizes axes, fun idx => Fin (x idx)) = Ok y /\ fst y = [1; 2] /\ snd y [0; 0] = NegInf.
Proof.
  set (axes := [{| an := 2; al := 2; ar := 0; ak := 2; as_ := 2 |}]). exists axes.
  assert (Hok : Forall ok_axis axes) by (constructor; [unfold ok_axis; cbn [an ak as_]; lia|constructor]).
  split; [exact Hok|]. split; [reflexivity|]. split; [constructor; [cbn [an]; lia|constructor]|]. intros x.
  destruct (C88_max false 1 axes x Hok eq_refl) as (y & Hy & Hs & Hv). exists y. split; [exact Hy|]. split; [exact Hs|].
  apply Hv; [lia|reflexivity|reflexivity].
Qed.
Print Assumptions C88_window_in_padding.

(** An input of shape (1, 2, 5) whose entries are 10 i + j. *)
Definition ex_ax (n k : Z) (l r s : Z) : axis := {| an := n; al := l; ar := r; ak := k; as_ := s |}.
Example C88_ex :
  Forall ok_axis [ex_ax 2 2 0 0 1; ex_ax 5 3 1 0 2] /\ forallb (accepted false) [ex_ax 2 2 0 0 1; ex_ax 5 3 1 0 2] = true /\
  window_at [ex_ax 2 2 0 0 1; ex_ax 5 3 1 0 2] [0; 0] = [[0; 0]; [0; 1]; [1; 0]; [1; 1]] /\
  window_at [ex_ax 2 2 0 0 1; ex_ax 5 3 1 0 2] [0; 1] = [[0; 1]; [0; 2]; [0; 3]; [1; 1]; [1; 2]; [1; 3]] /\
  block (parts [2; 5] [1; 2] [0; 1]) = [[0; 3]; [1; 3]; [0; 4]; [1; 4]].
Proof. split; [repeat constructor|repeat split; reflexivity]; cbn; lia. Qed.
(** Average of the first window: the padding counts. *)
Example C88_ex_avg :
  exists y, avg_pool (pool_of false [ex_ax 3 2 1 0 2]) ([1; 3], fun idx => INR (nth 1 idx 0 + 1)) = Ok y /\ fst y = [1; 2] /\
    snd y [0; 0] = (1 / 2)%R /\ snd y [0; 1] = (5 / 2)%R.
Proof.
  destruct (C88_avg false 1 [ex_ax 3 2 1 0 2] (fun idx => INR (nth 1 idx 0 + 1))) as (y & Hy & Hs & Hv).
  - repeat constructor; cbn; lia.
  - reflexivity.
  - exists y. split; [exact Hy|]. split; [exact Hs|]. rewrite !Hv by (cbn; lia).
    change (window_at [ex_ax 3 2 1 0 2] [0]) with [[0]]. change (window_at [ex_ax 3 2 1 0 2] [1]) with [[1]; [2]].
    change (fold_right Z.mul 1%Z (map ak [ex_ax 3 2 1 0 2])) with 2%Z. unfold Rsum. cbn [map fold_right nth Nat.add INR]. split; lra.
Qed.
