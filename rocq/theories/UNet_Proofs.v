(** Proofs about the U-Net: its blocks as nested levels, the shapes its call goes through. *)
From Verif Require Import Base UNet_Model.

(** A block without its key and attention: what decides shapes. *)
Definition strip (b : block) : block := mk_block (din b) (dout b) (bup b) (bdown b) false [].
Definition plain (a b : nat) : block := mk_block a b false false false [].

Fixpoint dcore (R : nat) (ps : list (nat * nat)) : list block :=
  match ps with
  | [] => []
  | (a, b) :: rest =>
      plain a b :: repeat (plain b b) (R - 2)
      ++ (match rest with [] => [] | _ => [mk_block b b false true false []] end) ++ dcore R rest
  end.
Definition upb (ps : list (nat * nat)) : list block := match ps with [] => [] | (a, _) :: _ => [mk_block a a true false false []] end.
Fixpoint ucore (R : nat) (ps : list (nat * nat)) : list block :=
  match ps with
  | [] => []
  | (a, b) :: rest => ucore R rest ++ upb rest ++ repeat (plain (b * 2) b) (R - 1) ++ [plain (b + a) a]
  end.

Lemma map_const_seq {A} (f : nat -> A) x i n : (forall j, f j = x) -> map f (seq i n) = repeat x n.
Proof. intros H. revert i. induction n; simpl; intros; congruence. Qed.

Lemma downs_core R L ks rs : forall ps ind i h w, ind + length ps = L ->
  map strip (concat (fst (down_levels R L ks rs ind i h w ps))) = dcore R ps.
Proof.
  induction ps as [|[a b] ps IH]; intros ind i h w Hl; [reflexivity|].
  cbn [down_levels]. set (more := Nat.ltb ind (L - 1)). set (i' := i + _). set (h' := if more then h / 2 else h). set (w' := if more then w / 2 else w).
  simpl in Hl. specialize (IH (S ind) i' h' w' ltac:(lia)). destruct (down_levels _ _ _ _ (S ind) i' h' w' ps) as [r st]. cbn [fst concat] in *.
  rewrite map_app, IH. unfold down_level. cbn [map dcore]. rewrite map_app, map_map, <- app_comm_cons, <- app_assoc.
  f_equal. f_equal; [apply map_const_seq; reflexivity|]. f_equal. fold more.
  unfold more. destruct ps as [|q ps]; simpl in Hl.
  - replace (Nat.ltb ind (L - 1)) with false by (symmetry; apply Nat.ltb_ge; lia). reflexivity.
  - replace (Nat.ltb ind (L - 1)) with true by (symmetry; apply Nat.ltb_lt; lia). reflexivity.
Qed.

Definition ulv (R : nat) (more : bool) (p : nat * nat) : list block :=
  repeat (plain (snd p * 2) (snd p)) (R - 1) ++ plain (snd p + fst p) (fst p) :: (if more then [mk_block (fst p) (fst p) true false false []] else []).
Fixpoint uflat (R L ind : nat) (qs : list (nat * nat)) : list block :=
  match qs with [] => [] | q :: qs' => ulv R (Nat.ltb ind (L - 1)) q ++ uflat R L (S ind) qs' end.

Lemma ups_flat R L ks rs : forall qs ind i h w, map strip (concat (fst (up_levels R L ks rs ind i h w qs))) = uflat R L ind qs.
Proof.
  induction qs as [|[a b] qs IH]; intros ind i h w; [reflexivity|].
  cbn [up_levels]. set (more := Nat.ltb ind (L - 1)). set (i' := i + _). set (h' := if more then h * 2 else h). set (w' := if more then w * 2 else w).
  specialize (IH (S ind) i' h' w'). destruct (up_levels _ _ _ _ (S ind) i' h' w' qs) as [r st]. cbn [fst concat] in *.
  rewrite map_app, IH. cbn [uflat]. f_equal. unfold up_level, ulv. rewrite map_app, map_map. cbn [map fst snd]. f_equal.
  - apply map_const_seq; reflexivity.
  - f_equal. fold more. destruct more; reflexivity.
Qed.

Lemma uflat_app R L : forall xs ind ys, uflat R L ind (xs ++ ys) = uflat R L ind xs ++ uflat R L (ind + length xs) ys.
Proof.
  induction xs as [|x xs IH]; intros ind ys; simpl; [rewrite Nat.add_0_r; reflexivity|].
  rewrite IH, <- app_assoc, Nat.add_succ_r. reflexivity.
Qed.

Lemma uflat_inner R L : forall ps, length ps <= L - 1 -> uflat R L 0 (rev ps) = ucore R ps ++ upb ps.
Proof.
  induction ps as [|[a b] ps IH]; intros H; [reflexivity|]. simpl in H. simpl rev.
  rewrite uflat_app, IH by lia. cbn [uflat]. rewrite rev_length. simpl Nat.add.
  replace (Nat.ltb (length ps) (L - 1)) with true by (symmetry; apply Nat.ltb_lt; lia).
  unfold ulv. cbn [fst snd ucore upb]. rewrite app_nil_r, <- !app_assoc. reflexivity.
Qed.

Lemma ups_core R L ks rs ps i h w : length ps = L -> map strip (concat (fst (up_levels R L ks rs 0 i h w (rev ps)))) = ucore R ps.
Proof.
  intros H. rewrite ups_flat. destruct ps as [|[a b] ps]; [reflexivity|]. simpl in H. simpl rev.
  rewrite uflat_app, uflat_inner by lia. cbn [uflat]. rewrite rev_length. simpl Nat.add.
  replace (Nat.ltb (length ps) (L - 1)) with false by (symmetry; apply Nat.ltb_ge; lia).
  unfold ulv. cbn [fst snd ucore]. rewrite app_nil_r, <- !app_assoc. reflexivity.
Qed.

(** Shapes only. *)
Definition sstate : Type := (shape * list shape)%type.
Definition cblock (bg : bool) (b : block) (x : shape) : res shape := call_block bg false b None x.
Definition dstep bg b (st : sstate) : res sstate := h' <- cblock bg b (fst st) ;; Ok (h', h' :: snd st).
Definition mstep bg b (st : sstate) : res sstate := h' <- cblock bg b (fst st) ;; Ok (h', snd st).
Definition ustep bg b (st : sstate) : res sstate :=
  if bup b then h' <- cblock bg b (fst st) ;; Ok (h', snd st)
  else match snd st with [] => Err IndexError | s :: hs => x <- concat0 (fst st) s ;; h' <- cblock bg b x ;; Ok (h', hs) end.
Fixpoint ssteps (f : block -> sstate -> res sstate) (bs : list block) (st : sstate) : res sstate :=
  match bs with [] => Ok st | b :: bs' => st' <- f b st ;; ssteps f bs' st' end.
Fixpoint adv (n : nat) (k : option (list nat)) (u : list (option (list nat))) : option (list nat) * list (option (list nat)) :=
  match n with 0 => (k, u) | S n => adv n (fst (split_key k)) (u ++ [snd (split_key k)]) end.
Definition has_key (dr : bool) (k : option (list nat)) : Prop := dr = false \/ k <> None.

Lemma has_key_split dr k : has_key dr k -> has_key dr (fst (split_key k)) /\ has_key dr (snd (split_key k)).
Proof. unfold has_key. destruct k; simpl; [split; right; discriminate | tauto]. Qed.
Lemma cblock_key bg dr b k x : has_key dr k -> call_block bg dr b k x = cblock bg b x.
Proof.
  intros H. unfold cblock, call_block. destruct x as [[c h] w]. destruct (negb (c =? din b)); [reflexivity|].
  destruct (if bup b then _ else _) as [[[c' h'] w']|e]; simpl; [|reflexivity].
  destruct H as [-> | H]; [reflexivity|]. destruct k; [rewrite andb_false_r; reflexivity | congruence].
Qed.

Definition lift (n : nat) (k : option (list nat)) (u : list (option (list nat))) (st : sstate) : state :=
  (fst st, snd st, fst (adv n k u), snd (adv n k u)).
Lemma steps_lift dr (f : block -> state -> res state) (g : block -> sstate -> res sstate) :
  (forall b h hs k u, has_key dr k -> f b (h, hs, k, u) = rmap (lift 1 k u) (g b (h, hs))) ->
  forall bs h hs k u, has_key dr k -> steps f bs (h, hs, k, u) = rmap (lift (length bs) k u) (ssteps g bs (h, hs)).
Proof.
  intros Hf. induction bs as [|b bs IH]; intros h hs k u Hk; [reflexivity|].
  cbn [steps ssteps]. rewrite Hf by assumption. destruct (g b (h, hs)) as [[h' hs']|e]; simpl; [|reflexivity].
  unfold lift at 1. cbn [fst snd adv]. rewrite IH by (apply has_key_split; assumption). reflexivity.
Qed.
Lemma down_lift bg dr b h hs k u : has_key dr k -> down_step bg dr b (h, hs, k, u) = rmap (lift 1 k u) (dstep bg b (h, hs)).
Proof.
  intros H. unfold down_step, dstep. rewrite (surjective_pairing (split_key k)). rewrite cblock_key by (apply has_key_split; assumption). cbn [fst snd].
  destruct (cblock bg b h); reflexivity.
Qed.
Lemma mid_lift bg dr b h hs k u : has_key dr k -> mid_step bg dr b (h, hs, k, u) = rmap (lift 1 k u) (mstep bg b (h, hs)).
Proof.
  intros H. unfold mid_step, mstep. rewrite (surjective_pairing (split_key k)). rewrite cblock_key by (apply has_key_split; assumption). cbn [fst snd].
  destruct (cblock bg b h); reflexivity.
Qed.
Lemma up_lift bg dr b h hs k u : has_key dr k -> up_step bg dr b (h, hs, k, u) = rmap (lift 1 k u) (ustep bg b (h, hs)).
Proof.
  intros H. unfold up_step, ustep. rewrite (surjective_pairing (split_key k)). cbn [fst snd]. destruct (bup b).
  - rewrite cblock_key by (apply has_key_split; assumption). destruct (cblock bg b h); reflexivity.
  - destruct hs as [|s hs]; [reflexivity|]. destruct (concat0 h s); simpl; [|reflexivity].
    rewrite cblock_key by (apply has_key_split; assumption). destruct (cblock bg b a); reflexivity.
Qed.
Lemma adv_key dr : forall n k u, has_key dr k -> has_key dr (fst (adv n k u)).
Proof. induction n; simpl; intros; [assumption|]. apply IHn. apply has_key_split; assumption. Qed.
Lemma adv_add : forall n m k u, adv (n + m) k u = adv m (fst (adv n k u)) (snd (adv n k u)).
Proof. induction n; simpl; intros; [reflexivity|]. apply IHn. Qed.

Definition sruns (bg : bool) (ds ms us : list block) (st : sstate) : res sstate :=
  st1 <- ssteps (dstep bg) ds st ;; st2 <- ssteps (mstep bg) ms st1 ;; ssteps (ustep bg) us st2.
Lemma runs_lift bg dr ds ms us h hs k u : has_key dr k ->
  (st1 <- steps (down_step bg dr) ds (h, hs, k, u) ;; st2 <- steps (mid_step bg dr) ms st1 ;; steps (up_step bg dr) us st2)
  = rmap (lift (length ds + length ms + length us) k u) (sruns bg ds ms us (h, hs)).
Proof.
  intros Hk. unfold sruns.
  rewrite (steps_lift dr _ (dstep bg)) by (intros; try apply down_lift; assumption).
  destruct (ssteps (dstep bg) ds (h, hs)) as [[h1 hs1]|e]; simpl; [|reflexivity]. unfold lift at 1. cbn [fst snd].
  rewrite (steps_lift dr _ (mstep bg)) by (intros; try apply mid_lift; try apply adv_key; assumption).
  destruct (ssteps (mstep bg) ms (h1, hs1)) as [[h2 hs2]|e]; simpl; [|reflexivity]. unfold lift at 1. cbn [fst snd].
  rewrite <- adv_add.
  rewrite (steps_lift dr _ (ustep bg)) by (intros; try apply up_lift; try apply adv_key; assumption).
  destruct (ssteps (ustep bg) us (h2, hs2)) as [[h3 hs3]|e]; simpl; [|reflexivity]. unfold lift. cbn [fst snd]. rewrite <- adv_add. reflexivity.
Qed.

Lemma ssteps_strip f : (forall b st, f b st = f (strip b) st) -> forall bs st, ssteps f bs st = ssteps f (map strip bs) st.
Proof. intros H. induction bs; simpl; intros; [reflexivity|]. rewrite H. destruct (f (strip a) st); simpl; auto. Qed.
Lemma sruns_strip bg ds ms us st : sruns bg ds ms us st = sruns bg (map strip ds) (map strip ms) (map strip us) st.
Proof.
  unfold sruns. rewrite (ssteps_strip (dstep bg)) by reflexivity. destruct (ssteps (dstep bg) _ st); simpl; [|reflexivity].
  rewrite (ssteps_strip (mstep bg)) by reflexivity. destruct (ssteps (mstep bg) _ a); simpl; [|reflexivity].
  apply (ssteps_strip (ustep bg)). reflexivity.
Qed.
Lemma ssteps_app f : forall xs ys st, ssteps f (xs ++ ys) st = (st' <- ssteps f xs st ;; ssteps f ys st').
Proof. induction xs; simpl; intros; [reflexivity|]. destruct (f a st); simpl; auto. Qed.
Lemma sruns_app bg d1 ds ms us u1 st :
  sruns bg (d1 ++ ds) ms (us ++ u1) st = (st1 <- ssteps (dstep bg) d1 st ;; st2 <- sruns bg ds ms us st1 ;; ssteps (ustep bg) u1 st2).
Proof.
  unfold sruns. rewrite ssteps_app. destruct (ssteps (dstep bg) d1 st); simpl; [|reflexivity].
  destruct (ssteps (dstep bg) ds a); simpl; [|reflexivity]. destruct (ssteps (mstep bg) ms a0); simpl; [|reflexivity].
  apply ssteps_app.
Qed.

(** Plain blocks. *)
Lemma cblock_plain bg a b h w : cblock bg (plain a b) (a, h, w) = Ok (b, h, w).
Proof. unfold cblock, call_block. simpl. rewrite Nat.eqb_refl. reflexivity. Qed.
Lemma downs_rep bg b h w : forall n hs, ssteps (dstep bg) (repeat (plain b b) n) ((b, h, w), hs) = Ok ((b, h, w), repeat (b, h, w) n ++ hs).
Proof.
  induction n; intros hs; [reflexivity|]. cbn [repeat ssteps]. unfold dstep at 1. cbn [fst snd]. rewrite cblock_plain. cbn [bind]. rewrite IHn.
  f_equal. f_equal. cbn [app]. change ((b, h, w) :: hs) with ([(b, h, w)] ++ hs). rewrite app_assoc. rewrite <- repeat_cons. reflexivity.
Qed.
Lemma concat0_same c d h w : concat0 (c, h, w) (d, h, w) = Ok (c + d, h, w).
Proof. simpl. rewrite !Nat.eqb_refl. reflexivity. Qed.
Lemma ups_rep bg b h w : forall n hs, ssteps (ustep bg) (repeat (plain (b * 2) b) n) ((b, h, w), repeat (b, h, w) n ++ hs) = Ok ((b, h, w), hs).
Proof.
  induction n; intros hs; [reflexivity|]. cbn [repeat ssteps app]. unfold ustep at 1. cbn [fst snd bup plain]. rewrite concat0_same. cbn [bind].
  replace (b + b) with (b * 2) by lia. change (mk_block (b * 2) b false false false []) with (plain (b * 2) b). rewrite cblock_plain. cbn [bind]. apply IHn.
Qed.
Lemma up_last bg a b h w hs : ssteps (ustep bg) [plain (b + a) a] ((b, h, w), (a, h, w) :: hs) = Ok ((a, h, w), hs).
Proof.
  cbn [ssteps]. unfold ustep. cbn [fst snd bup plain]. rewrite concat0_same. cbn [bind].
  change (mk_block (b + a) a false false false []) with (plain (b + a) a). rewrite cblock_plain. reflexivity.
Qed.
(** The upward blocks of one level. *)
Lemma ups_level bg a b h w n hs :
  ssteps (ustep bg) (repeat (plain (b * 2) b) n ++ [plain (b + a) a]) ((b, h, w), repeat (b, h, w) n ++ (a, h, w) :: hs) = Ok ((a, h, w), hs).
Proof. rewrite ssteps_app, ups_rep. cbn [bind]. apply up_last. Qed.
Lemma ups_level_bad bg a b h w h' w' n hs : (h', w') <> (h, w) ->
  ssteps (ustep bg) (repeat (plain (b * 2) b) (S n) ++ [plain (b + a) a]) ((b, h', w'), repeat (b, h, w) (S n) ++ hs) = Err TypeError.
Proof.
  intros H. cbn [repeat app ssteps]. unfold ustep at 1. cbn [fst snd bup plain]. unfold concat0.
  replace ((h' =? h) && (w' =? w)) with false; [reflexivity|]. symmetry. apply andb_false_iff.
  destruct (Nat.eqb_spec h' h), (Nat.eqb_spec w' w); subst; tauto.
Qed.

(** Divisibility by powers of two. *)
Definition divs (n h : nat) : bool := Nat.eqb (h mod 2 ^ n) 0.
Lemma divs_spec n h : divs n h = true <-> Nat.divide (2 ^ n) h.
Proof. unfold divs. rewrite Nat.eqb_eq. apply Nat.mod_divide. apply Nat.pow_nonzero. discriminate. Qed.
Lemma divs_S_even n h : divs (S n) (2 * h) = divs n h.
Proof.
  apply eq_true_iff_eq. rewrite !divs_spec. simpl Nat.pow. replace (2 ^ n + (2 ^ n + 0)) with (2 * 2 ^ n) by lia.
  split; intros [k Hk]; exists k; nia.
Qed.
Lemma divs_S_odd n h : divs (S n) (2 * h + 1) = false.
Proof.
  apply not_true_is_false. rewrite divs_spec. intros [k Hk]. simpl Nat.pow in Hk. replace (2 ^ n + (2 ^ n + 0)) with (2 * 2 ^ n) in Hk by lia. 
  replace (k * (2 * 2 ^ n)) with (2 * (k * 2 ^ n)) in Hk by ring. lia.
Qed.
Lemma even_odd h : (exists m, h = 2 * m) \/ (exists m, h = 2 * m + 1).
Proof. destruct (Nat.Even_or_Odd h) as [[m ->] | [m ->]]; [left | right]; exists m; reflexivity. Qed.

Definition down_size (h : nat) : nat := (h + 2 * 1 - 3) / 2 + 1.
Lemma down_size_even m : 0 < m -> down_size (2 * m) = m.
Proof. intros H. unfold down_size. replace (2 * m + 2 * 1 - 3) with (1 + (m - 1) * 2) by lia. rewrite Nat.div_add by lia. simpl. lia. Qed.
Lemma down_size_odd m : down_size (2 * m + 1) = m + 1.
Proof. unfold down_size. replace (2 * m + 1 + 2 * 1 - 3) with (m * 2) by lia. rewrite Nat.div_mul by lia. reflexivity. Qed.
Lemma half_even m : 2 * m / 2 = m.
Proof. replace (2 * m) with (m * 2) by lia. apply Nat.div_mul. lia. Qed.
Lemma half_odd m : (2 * m + 1) / 2 = m.
Proof. replace (2 * m + 1) with (1 + m * 2) by lia. rewrite Nat.div_add by lia. reflexivity. Qed.

Fixpoint chain (a : nat) (ps : list (nat * nat)) : Prop := match ps with [] => True | (x, y) :: r => x = a /\ chain y r end.
Fixpoint final (a : nat) (ps : list (nat * nat)) : nat := match ps with [] => a | (_, y) :: r => final y r end.

Lemma cblock_up bg c h w : 0 < h -> 0 < w -> cblock bg (mk_block c c true false false []) (c, h, w) = Ok (c, 2 * h, 2 * w).
Proof.
  intros Hh Hw. unfold cblock, call_block. cbn [din bup]. rewrite Nat.eqb_refl. unfold scale_up. cbn [negb]. 
  destruct bg; cbn [bind andb dout].
  - rewrite (Nat.mul_comm h), (Nat.mul_comm w). reflexivity.
  - replace ((h - 1) * 2 + 4 - 2 * 1) with (2 * h) by lia. replace ((w - 1) * 2 + 4 - 2 * 1) with (2 * w) by lia. reflexivity.
Qed.
Lemma cblock_down bg c h w : cblock bg (mk_block c c false true false []) (c, h, w)
  = if bg then if Nat.eqb (2 * (h / 2)) h && Nat.eqb (2 * (w / 2)) w then Ok (c, h / 2, w / 2) else Err TypeError
    else Ok (c, down_size h, down_size w).
Proof.
  unfold cblock, call_block. cbn [din bup bdown]. rewrite Nat.eqb_refl. unfold scale_down. cbn [negb].
  destruct bg; [destruct (_ && _)|]; reflexivity.
Qed.

(** From the first block of a level to the last block that goes with it. *)
Lemma body bg R : 2 <= R -> forall ps a h w hs, ps <> [] -> chain a ps -> 0 < h -> 0 < w ->
  sruns bg (dcore R ps) [plain (final a ps) (final a ps); plain (final a ps) (final a ps)] (ucore R ps) ((a, h, w), (a, h, w) :: hs)
  = if divs (length ps - 1) h && divs (length ps - 1) w then Ok ((a, h, w), hs) else Err TypeError.
Proof.
  intros HR. induction ps as [|[x b] rest IH]; intros a h w hs Hne Hc Hh Hw; [congruence|]. destruct Hc as [-> Hc]. clear Hne.
  assert (HD : forall hs, ssteps (dstep bg) (plain a b :: repeat (plain b b) (R - 2)) ((a, h, w), hs) = Ok ((b, h, w), repeat (b, h, w) (R - 1) ++ hs)).
  { intros hs'. cbn [ssteps]. unfold dstep at 1. cbn [fst snd]. rewrite cblock_plain. cbn [bind]. rewrite downs_rep. f_equal. f_equal.
    change ((b, h, w) :: hs') with ([(b, h, w)] ++ hs'). rewrite app_assoc, <- repeat_cons. replace (R - 1) with (S (R - 2)) by lia. reflexivity. }
  cbn [dcore ucore]. rewrite app_comm_cons. set (d1 := plain a b :: repeat (plain b b) (R - 2)) in *. cbn [final length].
  replace (S (length rest) - 1) with (length rest) by lia.
  destruct rest as [|q rest].
  - cbn [ucore upb app dcore final length]. rewrite app_nil_r. unfold sruns. rewrite HD. cbn [bind].
    unfold divs. simpl Nat.pow. rewrite !Nat.mod_1_r. cbn [Nat.eqb andb].
    cbn [ssteps]. unfold mstep. cbn [fst snd]. rewrite cblock_plain. cbn [bind fst snd]. rewrite cblock_plain. cbn [bind]. apply ups_level.
  - assert (IH' : forall h w hs, 0 < h -> 0 < w -> sruns bg (dcore R (q :: rest)) [plain (final b (q :: rest)) (final b (q :: rest)); plain (final b (q :: rest)) (final b (q :: rest))] (ucore R (q :: rest)) ((b, h, w), (b, h, w) :: hs)
  = if divs (length rest) h && divs (length rest) w then Ok ((b, h, w), hs) else Err TypeError).
    { intros h0 w0 hs0 Hh0 Hw0. rewrite (IH b h0 w0 hs0) by (try discriminate; assumption). cbn [length]. replace (S (length rest) - 1) with (length rest) by lia. reflexivity. }
    clear IH. replace (upb (q :: rest)) with [mk_block b b true false false []] by (destruct q; destruct Hc; subst; reflexivity).
    set (ps := q :: rest) in *. set (fin := final b ps) in *. rewrite app_assoc. rewrite sruns_app. rewrite ssteps_app, HD. cbn [bind ssteps].
    unfold dstep at 1. cbn [fst snd]. rewrite cblock_down.
    cbn [length]. set (n := length rest) in *. change (length ps) with (S n).
    assert (HU : forall h' w', 0 < h' -> 0 < w' ->
      (st2 <- (if divs n h' && divs n w' then Ok ((b, h', w'), repeat (b, h, w) (R - 1) ++ (a, h, w) :: hs) else Err TypeError) ;;
       ssteps (ustep bg) ([mk_block b b true false false []] ++ repeat (plain (b * 2) b) (R - 1) ++ [plain (b + a) a]) st2)
      = if (divs n h' && divs n w') && ((2 * h' =? h) && (2 * w' =? w)) then Ok ((a, h, w), hs) else Err TypeError).
    { intros h' w' Hh' Hw'. destruct (divs n h' && divs n w'); [|reflexivity]. cbn [bind andb app ssteps]. unfold ustep at 1. cbn [fst snd bup].
      rewrite cblock_up by assumption. cbn [bind].
      destruct ((2 * h' =? h) && (2 * w' =? w)) eqn:E.
      - apply andb_true_iff in E as [E1 E2]. apply Nat.eqb_eq in E1, E2. rewrite E1, E2. apply ups_level.
      - replace (R - 1) with (S (R - 2)) by lia. apply ups_level_bad. intros X. inversion X. subst. rewrite !Nat.eqb_refl in E. discriminate. }
    destruct (even_odd h) as [[m ->] | [m ->]], (even_odd w) as [[k ->] | [k ->]].
    + rewrite !half_even, !divs_S_even, !Nat.eqb_refl, !down_size_even by lia. cbn [andb].
      destruct bg; cbn [bind]; rewrite IH' by lia; rewrite HU by lia; rewrite !Nat.eqb_refl; cbn [andb]; rewrite andb_true_r; reflexivity.
    + rewrite divs_S_odd, andb_false_r. rewrite half_odd. replace (2 * k =? 2 * k + 1) with false by (symmetry; apply Nat.eqb_neq; lia).
      rewrite andb_false_r. destruct bg; [reflexivity|]. cbn [bind]. rewrite down_size_even, down_size_odd by lia. rewrite IH' by lia. rewrite HU by lia.
      replace (2 * (k + 1) =? 2 * k + 1) with false by (symmetry; apply Nat.eqb_neq; lia). rewrite !andb_false_r. reflexivity.
    + rewrite divs_S_odd. rewrite half_odd. replace (2 * m =? 2 * m + 1) with false by (symmetry; apply Nat.eqb_neq; lia).
      cbn [andb]. destruct bg; [reflexivity|]. cbn [bind]. rewrite down_size_even, down_size_odd by lia. rewrite IH' by lia. rewrite HU by lia.
      replace (2 * (m + 1) =? 2 * m + 1) with false by (symmetry; apply Nat.eqb_neq; lia). cbn [andb]. rewrite !andb_false_r. reflexivity.
    + rewrite divs_S_odd. rewrite !half_odd. replace (2 * m =? 2 * m + 1) with false by (symmetry; apply Nat.eqb_neq; lia).
      cbn [andb]. destruct bg; [reflexivity|]. cbn [bind]. rewrite !down_size_odd by lia. rewrite IH' by lia. rewrite HU by lia.
      replace (2 * (m + 1) =? 2 * m + 1) with false by (symmetry; apply Nat.eqb_neq; lia). cbn [andb]. rewrite !andb_false_r. reflexivity.
Qed.

(** Construction. *)
Definition norm_ok (d : nat) : Prop := 4 <= d /\ Nat.divide (Nat.min (d / 4) 32) d.
Definition block_ok (b : block) : Prop := norm_ok (din b) /\ norm_ok (dout b) /\ (bup b && bdown b) = false.

Lemma group_norm_spec d : (exists t, group_norm d = Ok t) <-> norm_ok d.
Proof.
  unfold group_norm, norm_ok. change (Nat.min (d / 4) 32) with (groups d). destruct (Nat.eqb_spec (groups d) 0) as [E|E].
  - unfold groups in E. split; [intros [t Ht]; discriminate|]. intros [H _].
    assert (1 <= d / 4) by (apply Nat.div_le_lower_bound; lia). lia.
  - rewrite <- Nat.mod_divide by assumption. assert (4 <= d).
    { destruct (le_lt_dec 4 d); [assumption|]. exfalso. apply E. unfold groups. rewrite Nat.div_small by lia. reflexivity. }
    destruct (Nat.eqb_spec (d mod groups d) 0) as [E'|E']; [|split; [intros [t Ht]; discriminate | intros [_ X]; congruence]].
    split; [auto | intros _; exists tt; reflexivity].
Qed.
Lemma make_block_spec b r : make_block b = Ok r <-> r = b /\ block_ok b.
Proof.
  unfold make_block, block_ok. rewrite <- !group_norm_spec. destruct (group_norm (din b)) as [t|e]; simpl.
  - destruct (group_norm (dout b)) as [t'|e]; simpl.
    + destruct (bup b && bdown b); split; intros H; [discriminate | destruct H as (_ & _ & _ & X); discriminate | | destruct H as [-> _]; reflexivity].
      inversion H. subst. split; [reflexivity|]. split; [exists t; reflexivity|]. split; [exists t'; reflexivity | reflexivity].
    + split; [discriminate | intros (_ & _ & [x X] & _); discriminate].
  - split; [discriminate | intros (_ & [x X] & _); discriminate].
Qed.
Lemma mapM_same {A} (f : A -> res A) (P : A -> Prop) : (forall x r, f x = Ok r <-> r = x /\ P x) ->
  forall l r, mapM f l = Ok r <-> r = l /\ Forall P l.
Proof.
  intros Hf. induction l as [|x l IH]; intros r; simpl.
  - split; [intros H; inversion H; auto | intros [-> _]; reflexivity].
  - split.
    + intros H. bind_inv. rename Hb into H1, Hb1 into H2. apply Hf in H1 as [-> H1]. apply IH in H2 as [-> H2]. auto.
    + intros [-> H]. inversion H. subst. rewrite (proj2 (Hf x x)) by auto. simpl. rewrite (proj2 (IH l)) by auto. reflexivity.
Qed.
Lemma mapM_blocks ds r : mapM (mapM make_block) ds = Ok r <-> r = ds /\ Forall block_ok (concat ds).
Proof.
  rewrite (mapM_same (mapM make_block) (Forall block_ok)).
  - enough (Forall (Forall block_ok) ds <-> Forall block_ok (concat ds)) by tauto.
    induction ds; simpl; [split; constructor|]. rewrite Forall_app, Forall_cons_iff. tauto.
  - intros. apply mapM_same. apply make_block_spec.
Qed.
Lemma block_ok_strip l : Forall block_ok (map strip l) <-> Forall block_ok l.
Proof. rewrite Forall_map. apply iff_refl. Qed.

Lemma Forall_repeat {A} (P : A -> Prop) x n : P x -> Forall P (repeat x n).
Proof. intros H. induction n; simpl; auto. Qed.
Lemma plain_ok a b : block_ok (plain a b) <-> norm_ok a /\ norm_ok b.
Proof. unfold block_ok. simpl. tauto. Qed.
Lemma dcore_ok R : forall ps, Forall block_ok (dcore R ps) <-> Forall (fun p => norm_ok (fst p) /\ norm_ok (snd p)) ps.
Proof.
  induction ps as [|[a b] ps IH]; [simpl; split; constructor|]. cbn [dcore]. rewrite Forall_cons_iff, !Forall_app, IH, plain_ok, Forall_cons_iff. cbn [fst snd].
  split; [tauto|]. intros [[H1 H2] H3]. split; [tauto|]. split; [|split; [|assumption]].
  - apply Forall_repeat. apply plain_ok. auto.
  - destruct ps; constructor; [|constructor]. split; [assumption | split; [assumption | reflexivity]].
Qed.
Lemma ucore_ok R : 2 <= R -> forall ps,
  Forall block_ok (ucore R ps) <-> Forall (fun p => norm_ok (fst p) /\ norm_ok (snd p) /\ norm_ok (snd p * 2) /\ norm_ok (snd p + fst p)) ps.
Proof.
  intros HR. induction ps as [|[a b] ps IH]; [simpl; split; constructor|]. cbn [ucore]. rewrite !Forall_app, IH, Forall_cons_iff. cbn [fst snd].
  replace (R - 1) with (S (R - 2)) by lia. cbn [repeat]. rewrite !Forall_cons_iff, !plain_ok. split; [tauto|].
  intros [(H1 & H2 & H3 & H4) H5]. split; [assumption|]. split; [|split; [split; [tauto|]|split; [tauto | constructor]]].
  - destruct ps as [|[x y] ps]; simpl; [constructor|]. inversion H5 as [|? ? (A & _) _]. constructor; [|constructor]. split; [exact A | split; [exact A | reflexivity]].
  - apply Forall_repeat. apply plain_ok. auto.
Qed.

(** Lengths, keys, resolutions. *)
Lemma map_seq_shift {A} (f : nat -> A) i : forall n k, map (fun j => f (i + j)) (seq k n) = map f (seq (i + k) n).
Proof. induction n; intros k; simpl; [reflexivity|]. rewrite IHn, Nat.add_succ_r. reflexivity. Qed.
Lemma downs_keys R L ks rs : forall ps ind i h w,
  let bs := concat (fst (down_levels R L ks rs ind i h w ps)) in
  map bkey bs = map ks (seq i (length bs)) /\ fst (fst (snd (down_levels R L ks rs ind i h w ps))) = i + length bs.
Proof.
  induction ps as [|[a b] ps IH]; intros ind i h w; [simpl; split; [reflexivity | lia]|].
  cbn [down_levels]. set (more := Nat.ltb ind (L - 1)). set (lv := down_level _ _ _ _ _ _ _). set (h' := if more then h / 2 else h). set (w' := if more then w / 2 else w).
  specialize (IH (S ind) (i + length lv) h' w'). destruct (down_levels _ _ _ _ (S ind) _ h' w' ps) as [r st]. cbn [fst snd concat] in *.
  destruct IH as [IH1 IH2]. split; [|rewrite IH2, app_length; lia].
  rewrite map_app, app_length, seq_app, map_app, IH1. f_equal.
  subst lv. unfold down_level. cbn [map length seq]. f_equal. rewrite map_app, map_map, app_length, map_length, seq_length, seq_app, map_app. f_equal.
  - cbn [bkey]. rewrite map_seq_shift. replace (i + 1 + 0) with (S i) by lia. reflexivity.
  - fold more. destruct more; [|reflexivity]. cbn. f_equal. f_equal. lia.
Qed.
Lemma ups_keys R L ks rs : forall ps ind i h w,
  let bs := concat (fst (up_levels R L ks rs ind i h w ps)) in
  map bkey bs = map ks (seq i (length bs)) /\ snd (up_levels R L ks rs ind i h w ps) = i + length bs.
Proof.
  induction ps as [|[a b] ps IH]; intros ind i h w; [simpl; split; [reflexivity | lia]|].
  cbn [up_levels]. set (more := Nat.ltb ind (L - 1)). set (lv := up_level _ _ _ _ _ _ _). set (h' := if more then h * 2 else h). set (w' := if more then w * 2 else w).
  specialize (IH (S ind) (i + length lv) h' w'). destruct (up_levels _ _ _ _ (S ind) _ h' w' ps) as [r st]. cbn [fst snd concat] in *.
  destruct IH as [IH1 IH2]. split; [|rewrite IH2, app_length; lia].
  rewrite map_app, app_length, seq_app, map_app, IH1. f_equal.
  subst lv. unfold up_level. rewrite map_app, map_map, app_length, map_length, seq_length, seq_app, map_app. f_equal.
  - cbn [bkey]. rewrite map_seq_shift, Nat.add_0_r. reflexivity.
  - fold more. destruct more; cbn; [|reflexivity]. f_equal. f_equal. f_equal. lia.
Qed.
Lemma dcore_length R : forall ps, ps <> [] -> length (dcore R ps) = length ps * S (R - 2) + (length ps - 1).
Proof.
  induction ps as [|[a b] ps IH]; intros H; [congruence|]. cbn [dcore length]. rewrite !app_length, repeat_length.
  destruct ps as [|p ps]; [simpl; lia|]. rewrite IH by discriminate. simpl. lia.
Qed.
Lemma ucore_length R : forall ps, ps <> [] -> length (ucore R ps) = length ps * S (R - 1) + (length ps - 1).
Proof.
  induction ps as [|[a b] ps IH]; intros H; [congruence|]. cbn [ucore length]. rewrite !app_length, repeat_length.
  destruct ps as [|[x y] ps]; [simpl; lia|]. rewrite IH by discriminate. simpl. lia.
Qed.

Lemma at_res_spec rs h w : at_res rs h w = true <-> In h rs /\ In w rs.
Proof.
  assert (E : forall x, existsb (Nat.eqb x) rs = true <-> In x rs).
  { intros x. rewrite existsb_exists. split; [intros (y & Hy & E); apply Nat.eqb_eq in E; subst; assumption | intros H; exists x; split; [assumption | apply Nat.eqb_refl]]. }
  unfold at_res. rewrite andb_true_iff, !E. reflexivity.
Qed.
Lemma down_level_attn R L ks t ind i p b : In b (down_level R L ks t ind i p) -> battn b = t.
Proof.
  destruct p as [x y]. unfold down_level. intros [<- | H]; [reflexivity|]. apply in_app_iff in H as [H|H].
  - apply in_map_iff in H as (j & <- & _). reflexivity.
  - destruct (ind <? L - 1); [destruct H as [<- | []]; reflexivity | destruct H].
Qed.
Lemma up_level_attn R L ks t ind i p b : In b (up_level R L ks t ind i p) -> battn b = t.
Proof.
  destruct p as [x y]. unfold up_level. intros H. apply in_app_iff in H as [H|[<- | H]].
  - apply in_map_iff in H as (j & <- & _). reflexivity.
  - reflexivity.
  - destruct (ind <? L - 1); [destruct H as [<- | []]; reflexivity | destruct H].
Qed.
Lemma downs_attn R L ks rs : forall ps ind i h w, ind + length ps = L -> forall l lv b,
  nth_error (fst (down_levels R L ks rs ind i h w ps)) l = Some lv -> In b lv -> battn b = at_res rs (h / 2 ^ l) (w / 2 ^ l).
Proof.
  induction ps as [|p ps IH]; intros ind i h w HL l lv b; [destruct l; discriminate|].
  cbn [down_levels]. set (more := Nat.ltb ind (L - 1)). set (lv0 := down_level _ _ _ _ _ _ _). set (h' := if more then h / 2 else h). set (w' := if more then w / 2 else w).
  simpl in HL. pose proof (IH (S ind) (i + length lv0) h' w' ltac:(lia)) as IH'. destruct (down_levels _ _ _ _ (S ind) _ h' w' ps) as [r st] eqn:Er. cbn [fst snd] in *.
  destruct l as [|l]; simpl nth_error.
  - intros H. inversion H. subst lv. intros Hb. apply down_level_attn in Hb. rewrite Hb. simpl Nat.pow. rewrite !Nat.div_1_r. reflexivity.
  - intros H Hb. rewrite (IH' l lv b H Hb).
    assert (more = true) as Hm.
    { apply Nat.ltb_lt. destruct ps as [|q ps]; [|simpl in HL; lia]. simpl in Er. inversion Er. subst r. destruct l; discriminate. }
    unfold h', w'. rewrite Hm. simpl Nat.pow. replace (2 ^ l + (2 ^ l + 0)) with (2 * 2 ^ l) by lia.
    rewrite !Nat.div_div by (try apply Nat.pow_nonzero; discriminate). reflexivity.
Qed.
Lemma downs_res R L ks rs : forall ps ind i h w, ps <> [] -> ind + length ps = L ->
  let st := snd (down_levels R L ks rs ind i h w ps) in (snd (fst st), snd st) = (h / 2 ^ (length ps - 1), w / 2 ^ (length ps - 1)).
Proof.
  induction ps as [|p ps IH]; intros ind i h w Hne HL; [congruence|].
  cbn [down_levels]. set (more := Nat.ltb ind (L - 1)). set (lv0 := down_level _ _ _ _ _ _ _). set (h' := if more then h / 2 else h). set (w' := if more then w / 2 else w).
  simpl in HL. destruct ps as [|q ps].
  - cbn [down_levels fst snd length] in *. change (2 ^ (1 - 1)) with 1. assert (more = false) as Hm by (apply Nat.ltb_ge; lia). unfold h', w'. rewrite Hm, !Nat.div_1_r. reflexivity.
  - specialize (IH (S ind) (i + length lv0) h' w' ltac:(discriminate) ltac:(simpl in *; lia)).
    destruct (down_levels _ _ _ _ (S ind) _ h' w' (q :: ps)) as [r st]. cbn [snd] in *. rewrite IH.
    assert (more = true) as Hm by (apply Nat.ltb_lt; simpl in HL; lia). unfold h', w'. rewrite Hm. cbn [length].
    replace (S (S (length ps)) - 1) with (S (length ps)) by lia. replace (S (length ps) - 1) with (length ps) by lia. simpl Nat.pow. replace (2 ^ length ps + (2 ^ length ps + 0)) with (2 * 2 ^ length ps) by lia.
    rewrite !Nat.div_div by (try apply Nat.pow_nonzero; discriminate). reflexivity.
Qed.
Lemma ups_attn R L ks rs : forall ps ind i h w, ind + length ps = L -> forall l lv b,
  nth_error (fst (up_levels R L ks rs ind i h w ps)) l = Some lv -> In b lv -> battn b = at_res rs (h * 2 ^ l) (w * 2 ^ l).
Proof.
  induction ps as [|p ps IH]; intros ind i h w HL l lv b; [destruct l; discriminate|].
  cbn [up_levels]. set (more := Nat.ltb ind (L - 1)). set (lv0 := up_level _ _ _ _ _ _ _). set (h' := if more then h * 2 else h). set (w' := if more then w * 2 else w).
  simpl in HL. pose proof (IH (S ind) (i + length lv0) h' w' ltac:(lia)) as IH'. destruct (up_levels _ _ _ _ (S ind) _ h' w' ps) as [r st] eqn:Er. cbn [fst snd] in *.
  destruct l as [|l]; simpl nth_error.
  - intros H. inversion H. subst lv. intros Hb. apply up_level_attn in Hb. rewrite Hb. simpl Nat.pow. rewrite !Nat.mul_1_r. reflexivity.
  - intros H Hb. rewrite (IH' l lv b H Hb).
    assert (more = true) as Hm.
    { apply Nat.ltb_lt. destruct ps as [|q ps]; [|simpl in HL; lia]. simpl in Er. inversion Er. subst r. destruct l; discriminate. }
    unfold h', w'. rewrite Hm. simpl Nat.pow. replace (2 ^ l + (2 ^ l + 0)) with (2 * 2 ^ l) by lia. rewrite !Nat.mul_assoc. reflexivity.
Qed.

(** Pairs of neighbouring widths. *)
Definition pairs (dims : list nat) : list (nat * nat) := List.combine (removelast dims) (tl dims).
Lemma pairs_cons x y l : pairs (x :: y :: l) = (x, y) :: pairs (y :: l).
Proof. reflexivity. Qed.
Lemma pairs_length x l : length (pairs (x :: l)) = length l.
Proof. revert x. induction l as [|y l IH]; intros x; [reflexivity|]. rewrite pairs_cons. simpl. f_equal. apply IH. Qed.
Lemma pairs_chain x l : chain x (pairs (x :: l)).
Proof. revert x. induction l as [|y l IH]; intros x; [exact I|]. rewrite pairs_cons. simpl. split; [reflexivity | apply IH]. Qed.
Lemma pairs_final x l : final x (pairs (x :: l)) = last (x :: l) 0.
Proof. revert x. induction l as [|y l IH]; intros x; [reflexivity|]. rewrite pairs_cons. simpl final. rewrite IH. reflexivity. Qed.
Definition adjacent (l : list nat) (a b : nat) : Prop := exists i, nth_error l i = Some a /\ nth_error l (S i) = Some b.
Lemma pairs_in x l a b : In (a, b) (pairs (x :: l)) <-> adjacent (x :: l) a b.
Proof.
  revert x. induction l as [|y l IH]; intros x.
  - simpl. split; [tauto|]. intros (i & _ & H). destruct i; discriminate.
  - rewrite pairs_cons. simpl In. rewrite IH. split.
    + intros [E | (i & H1 & H2)]; [inversion E; subst; exists 0; split; reflexivity | exists (S i); split; assumption].
    + intros ([|i] & H1 & H2); [left; simpl in *; congruence | right; exists i; split; assumption].
Qed.
Lemma pairs_Forall x l (P : nat * nat -> Prop) : Forall P (pairs (x :: l)) <-> forall a b, adjacent (x :: l) a b -> P (a, b).
Proof.
  rewrite Forall_forall. split.
  - intros H a b Hab. apply H. apply pairs_in. assumption.
  - intros H [a b] Hab. apply H. apply pairs_in. assumption.
Qed.
Lemma adjacent_in x l : l <> [] -> forall d, In d (x :: l) <-> (exists b, adjacent (x :: l) d b) \/ (exists a, adjacent (x :: l) a d).
Proof.
  intros Hne d. split.
  - intros H. apply In_nth_error in H as [i Hi]. destruct i as [|i].
    + left. destruct l as [|y l]; [congruence|]. exists y. exists 0. split; [assumption | reflexivity].
    + right. destruct (nth_error (x :: l) i) as [a|] eqn:E.
      * exists a, i. split; assumption.
      * apply nth_error_None in E. assert (S i < length (x :: l)) by (apply nth_error_Some; congruence). lia.
  - intros [(b & i & H & _) | (a & i & _ & H)]; eapply nth_error_In; eassumption.
Qed.

(** All that construction says. *)
Lemma make_unet_inv hidden data mults R H W rs bg dr u : make_unet hidden data mults R H W rs bg dr = Ok u ->
  let ps := pairs (hidden :: map (fun m => hidden * m) mults) in let L := length mults in
  let D := down_levels R L (key_at 2 (L * R - 1)) rs 0 0 H W ps in
  let U := up_levels R L (key_at 5 (L * (R + 1) - 1)) rs 0 0 (H / 2 ^ (L - 1)) (W / 2 ^ (L - 1)) (rev ps) in
  let mid := last (hidden :: map (fun m => hidden * m) mults) 0 in
  mults <> [] /\ 2 <= R /\ u = mk_unet hidden data bg dr (fst D) [mk_block mid mid false false true [3]; mk_block mid mid false false false [4]] (fst U)
  /\ length (concat (fst D)) = L * R - 1 /\ length (concat (fst U)) = L * (R + 1) - 1
  /\ Forall block_ok (concat (fst D)) /\ Forall block_ok (concat (fst U)) /\ norm_ok hidden.
Proof.
  unfold make_unet. fold (pairs (hidden :: map (fun m => hidden * m) mults)). set (ps := pairs _). intros Hm. cbn zeta.
  assert (HL : length ps = length mults) by (unfold ps; rewrite pairs_length, map_length; reflexivity).
  set (L := length mults) in *. destruct (hidden / 2 =? 1); [discriminate|]. rewrite HL in Hm. destruct (Nat.leb_spec (L * R) 1) as [|HLR]; [discriminate|].
  assert (Hps : ps <> []) by (intros E; rewrite E in HL; simpl in HL; rewrite <- HL in HLR; simpl in HLR; lia).
  assert (Hmu : mults <> []) by (intros ->; simpl in L; subst L; simpl in HLR; lia).
  pose proof (downs_res R L (key_at 2 (L * R - 1)) rs ps 0 0 H W Hps HL) as Hres. cbn zeta in Hres. rewrite HL in Hres.
  pose proof (downs_keys R L (key_at 2 (L * R - 1)) rs ps 0 0 H W) as [_ Hk]. pose proof (downs_core R L (key_at 2 (L * R - 1)) rs ps 0 0 H W HL) as Hc.
  set (D := down_levels R L (key_at 2 (L * R - 1)) rs 0 0 H W ps) in *. destruct D as [ds [[i h] w]]. cbn [fst snd] in *.
  inversion Hres. subst h w.
  pose proof (ups_keys R L (key_at 5 (L * (R + 1) - 1)) rs (rev ps) 0 0 (H / 2 ^ (L - 1)) (W / 2 ^ (L - 1))) as [_ Hku].
  set (U := up_levels R L (key_at 5 (L * (R + 1) - 1)) rs 0 0 (H / 2 ^ (L - 1)) (W / 2 ^ (L - 1)) (rev ps)) in *. destruct U as [us j]. cbn [fst snd] in *.
  apply bind_ok in Hm as (dn & Hdn & Hm). apply mapM_blocks in Hdn as [-> Hdn].
  destruct (Nat.eqb_spec i (L * R - 1)) as [Ei|]; [|discriminate]. cbn [negb] in Hm.
  apply bind_ok in Hm as (m1 & Hm1 & Hm). apply make_block_spec in Hm1 as [-> Hm1].
  apply bind_ok in Hm as (m2 & Hm2 & Hm). apply make_block_spec in Hm2 as [-> Hm2].
  apply bind_ok in Hm as (up & Hup & Hm). apply mapM_blocks in Hup as [-> Hup].
  destruct (Nat.eqb_spec j (L * (R + 1) - 1)) as [Ej|]; [|discriminate]. cbn [negb] in Hm.
  apply bind_ok in Hm as (t & Ht & Hm). inversion Hm. subst u.
  assert (HR : 2 <= R).
  { assert (Hlen : length (concat ds) = L * S (R - 2) + (L - 1)) by (rewrite <- HL, <- (dcore_length R ps Hps), <- Hc, map_length; reflexivity).
    rewrite Ei in Hk. destruct R as [|[|R]]; [lia| |lia]. simpl in Hk, Hlen, HLR. lia. }
  split; [assumption|]. split; [assumption|]. split; [reflexivity|]. split; [lia|]. split; [lia|]. split; [assumption|]. split; [assumption|].
  apply group_norm_spec. exists t. assumption.
Qed.
