From Verif Require Import Filters_Spec Filters_Proofs.

Lemma mapMi_length {A B} (f : nat -> A -> res B) l : forall j ys,
  mapMi f j l = Ok ys -> length ys = length l.
Proof.
  induction l as [|x l IH]; intros j ys H; simpl in H; bind_inv; [reflexivity|].
  simpl; f_equal; eauto.
Qed.

Lemma mapMi_nth {A B} (f : nat -> A -> res B) l : forall j ys i x,
  mapMi f j l = Ok ys -> nth_error l i = Some x ->
  exists y, nth_error ys i = Some y /\ f (j + i) x = Ok y.
Proof.
  induction l as [|x l IH]; intros j ys i x0 H Hi; simpl in H; bind_inv.
  - destruct i; discriminate.
  - destruct i; simpl in *.
    + injection Hi as <-. rewrite Nat.add_0_r; eauto.
    + rewrite Nat.add_succ_r. apply (IH (S j)); auto.
Qed.

Lemma mapMi_ok {A B} (f : nat -> A -> res B) l : forall j,
  (forall i x, nth_error l i = Some x -> exists y, f (j + i) x = Ok y) ->
  exists ys, mapMi f j l = Ok ys.
Proof.
  induction l as [|x l IH]; intros j H; simpl; [eauto|].
  destruct (H 0 x eq_refl) as [y Hy]; rewrite Nat.add_0_r in Hy; rewrite Hy; simpl.
  destruct (IH (S j)) as [ys Hys].
  { intros i z Hi. destruct (H (S i) z Hi) as [w Hw]. exists w. rewrite <- Hw. f_equal. lia. }
  rewrite Hys; simpl; eauto.
Qed.

Lemma mapMi_err {A B} (f : nat -> A -> res B) l : forall j e,
  mapMi f j l = Err e -> exists i x, nth_error l i = Some x /\ f (j + i) x = Err e.
Proof.
  induction l as [|x l IH]; intros j e H; simpl in H; [discriminate|].
  apply bind_err in H; destruct H as [H|[y [_ H]]].
  - exists 0, x; rewrite Nat.add_0_r; auto.
  - apply bind_err in H; destruct H as [H|[z [_ H]]]; [|discriminate].
    destruct (IH _ _ H) as (i & x' & Hi & Hf). exists (S i), x'; split; auto.
    rewrite <- Hf. f_equal. lia.
Qed.

Section Kids.
  Context {A : Type}.
  Lemma kids_spec k n (ts : list (tree A)) rows :
    kids k n ts = Ok rows -> Forall2 (fun t r => t = Node k r /\ length r = n) ts rows.
  Proof.
    revert rows; induction ts as [|t ts IH]; intros rows H; simpl in H; bind_inv; [constructor|].
    destruct t as [| |k' cs]; try discriminate.
    destruct (Nat.eqb_spec k k') as [<-|]; [|discriminate].
    destruct (Nat.eqb_spec n (length cs)) as [->|]; simpl in H; [|discriminate].
    bind_inv. constructor; auto.
  Qed.

  Lemma kids_ok k n (ts : list (tree A)) :
    Forall (fun t => shape_of t = ShNode k n) ts -> exists rows, kids k n ts = Ok rows.
  Proof.
    induction 1 as [|t ts Ht _ [rows IH]]; simpl; [eauto|].
    destruct t as [| |k' cs]; try discriminate. injection Ht as -> <-.
    rewrite !Nat.eqb_refl; simpl. rewrite IH; simpl; eauto.
  Qed.

  Lemma kids_err k n (ts : list (tree A)) e :
    kids k n ts = Err e -> e = ValueError /\ exists t, In t ts /\ shape_of t <> ShNode k n.
  Proof.
    induction ts as [|t ts IH]; simpl; intros H; [discriminate|].
    destruct t as [| |k' cs].
    - injection H as <-; split; [reflexivity|]; eexists; split; [left; reflexivity|discriminate].
    - injection H as <-; split; [reflexivity|]; eexists; split; [left; reflexivity|discriminate].
    - destruct (Nat.eqb_spec k k') as [<-|Hk]; simpl in H.
      + destruct (Nat.eqb_spec n (length cs)) as [->|Hn]; simpl in H.
        * apply bind_err in H; destruct H as [H|[r [_ H]]]; [|discriminate].
          destruct (IH H) as (-> & t & Hin & Ht); split; eauto.
        * injection H as <-; split; [reflexivity|]; eexists; split; [left; reflexivity|].
          simpl; congruence.
      + injection H as <-; split; [reflexivity|]; eexists; split; [left; reflexivity|].
        simpl; congruence.
  Qed.

  Lemma column_sub k n (ts : list (tree A)) rows i p :
    kids k n ts = Ok rows -> i < n ->
    map (fun t => sub t p) (column i rows) = map (fun t => sub t (i :: p)) ts.
  Proof.
    intros H Hi. apply kids_spec in H.
    induction H as [|t r ts rows [-> Hr] _ IH]; simpl; [reflexivity|].
    destruct (nth_error_ge_ex r i) as [x Hx]; [lia|]. rewrite Hx; simpl.
    f_equal; exact IH.
  Qed.

  Lemma column_In k n (ts : list (tree A)) rows i c :
    kids k n ts = Ok rows -> In c (column i rows) ->
    exists t, In t ts /\ sub t [i] = Some c.
  Proof.
    intros H. apply kids_spec in H.
    induction H as [|t r ts rows [-> Hr] _ IH]; simpl; [tauto|].
    destruct (nth_error r i) as [x|] eqn:Hx.
    - intros [<-|Hin].
      + eexists; split; [left; reflexivity|]. simpl; rewrite Hx; reflexivity.
      + destruct (IH Hin) as (t & Ht & Hs); eauto.
    - intros Hin. destruct (IH Hin) as (t & Ht & Hs); eauto.
  Qed.

  Lemma column_In' k n (ts : list (tree A)) rows i t :
    kids k n ts = Ok rows -> i < n -> In t ts ->
    exists c, sub t [i] = Some c /\ In c (column i rows).
  Proof.
    intros H Hi. apply kids_spec in H.
    induction H as [|t' r ts rows [-> Hr] _ IH]; simpl; [tauto|].
    destruct (nth_error_ge_ex r i) as [x Hx]; [lia|]. rewrite Hx.
    intros [<-|Hin].
    - exists x; simpl; rewrite Hx; auto.
    - destruct (IH Hin) as (c & Hc & Hs); simpl; eauto.
  Qed.
End Kids.

Section Combine.
  Context {A : Type} (isl : tree A -> bool).
  Let isl' := fun x : tree A => is_none x || isl x.
  Let F := fun (x : tree A) xs => Ok (combine_args (x :: xs)).

  Lemma combine_args_first (ts : list (tree A)) :
    Some (combine_args ts) = first_value (map (fun t => sub t []) ts).
  Proof.
    induction ts as [|t ts IH]; simpl; [reflexivity|].
    destruct t; simpl; auto.
  Qed.

  Lemma combine_first t0 p s : obj_leaf isl' t0 p s -> forall rest t,
    tmapn isl' F t0 rest = Ok t ->
    sub t p = first_value (map (fun u => sub u p) (t0 :: rest)).
  Proof.
    induction 1 as [t0 Ht|a|k cs i c p s Hk Hn _ IH]; intros rest t Hc.
    - assert (Hc' : F t0 rest = Ok t) by (destruct t0; cbn [tmapn] in Hc; rewrite Ht in Hc; exact Hc).
      unfold F in Hc'; injection Hc' as <-. exact (combine_args_first (t0 :: rest)).
    - cbn [tmapn] in Hc. destruct (isl' (Leaf a)); injection Hc as <-; reflexivity.
    - cbn [tmapn] in Hc. rewrite Hk in Hc. bind_inv.
      apply rmap_ok in Hb0; destruct Hb0 as [ys [Hy ->]].
      destruct (mapMi_nth _ _ _ _ _ _ Hy Hn) as (y & Hyi & Hf). simpl in Hf.
      cbn [sub map]. rewrite Hyi, Hn.
      rewrite (IH _ _ Hf). simpl map.
      rewrite (column_sub _ _ _ _ i p Hb) by (apply nth_error_lt in Hn; lia).
      reflexivity.
  Qed.

  Lemma combine_interior t0 p sh : interior isl' t0 p sh -> forall rest t,
    tmapn isl' F t0 rest = Ok t -> shape_at t p = Some sh.
  Proof.
    unfold shape_at.
    induction 1 as [H|k cs Hk|k cs i c p sh Hk Hn _ IH]; intros rest t Hc.
    - discriminate.
    - cbn [tmapn] in Hc. rewrite Hk in Hc. bind_inv.
      apply rmap_ok in Hb0; destruct Hb0 as [ys [Hy ->]].
      apply mapMi_length in Hy; simpl; rewrite Hy; reflexivity.
    - cbn [tmapn] in Hc. rewrite Hk in Hc. bind_inv.
      apply rmap_ok in Hb0; destruct Hb0 as [ys [Hy ->]].
      destruct (mapMi_nth _ _ _ _ _ _ Hy Hn) as (y & Hyi & Hf).
      cbn [sub]. rewrite Hyi. eapply IH; eauto.
  Qed.

  Lemma combine_err t0 : forall rest e,
    tmapn isl' F t0 rest = Err e ->
    e = ValueError /\ exists u p sh, In u rest /\ interior isl' t0 p sh /\ shape_at u p <> Some sh.
  Proof.
    induction t0 as [a| |k cs IH] using tree_ind'; intros rest e H; cbn [tmapn] in H.
    - destruct (isl' (Leaf a)); discriminate.
    - discriminate.
    - destruct (isl' (Node k cs)) eqn:Hk; [discriminate|].
      apply bind_err in H. destruct H as [H|[rows [Hrows H]]].
      + apply kids_err in H. destruct H as (-> & u & Hin & Hu). split; [reflexivity|].
        exists u, [], (ShNode k (length cs)). repeat split; auto.
        * constructor; exact Hk.
        * unfold shape_at; simpl; congruence.
      + destruct (mapMi _ 0 cs) as [ys|e'] eqn:Hm; simpl in H; [discriminate|injection H as <-].
        apply mapMi_err in Hm. destruct Hm as (i & c & Hi & Hf). simpl in Hf.
        rewrite Forall_forall in IH.
        destruct (IH c (nth_error_In _ _ Hi) _ _ Hf) as (-> & u & p & sh & Hin & Hint & Hsh).
        split; [reflexivity|].
        destruct (column_In _ _ _ _ _ _ Hrows Hin) as (t & Ht & Hs).
        exists t, (i :: p), sh; repeat split; auto.
        * econstructor; eauto.
        * intros E; apply Hsh. rewrite <- E. unfold shape_at. simpl in Hs |- *.
          destruct t; try discriminate. destruct (nth_error cs0 i); [|discriminate].
          injection Hs as ->; reflexivity.
  Qed.

  Lemma combine_mismatch t0 p sh : interior isl' t0 p sh -> forall rest u,
    In u rest -> shape_at u p <> Some sh -> tmapn isl' F t0 rest = Err ValueError.
  Proof.
    intros Hint rest u Hin Hsh.
    destruct (tmapn isl' F t0 rest) as [t|e] eqn:E; [|destruct (combine_err _ _ _ E); congruence].
    exfalso. revert rest u Hin Hsh t E.
    induction Hint as [H|k cs Hk|k cs i c p sh Hk Hn _ IH]; intros rest u Hin Hsh t Hc.
    - discriminate.
    - cbn [tmapn] in Hc. rewrite Hk in Hc. bind_inv.
      apply kids_spec in Hb. apply Hsh. clear -Hb Hin.
      induction Hb as [|x r ts rows [-> Hr] _ IHb]; simpl in *; [tauto|].
      destruct Hin as [<-|Hin]; auto. unfold shape_at; simpl; rewrite Hr; reflexivity.
    - cbn [tmapn] in Hc. rewrite Hk in Hc. bind_inv.
      apply rmap_ok in Hb0; destruct Hb0 as [ys [Hy ->]].
      destruct (mapMi_nth _ _ _ _ _ _ Hy Hn) as (y & Hyi & Hf). simpl in Hf.
      assert (Hlt : i < length cs) by (apply nth_error_lt in Hn; exact Hn).
      destruct (column_In' _ _ _ _ i u Hb Hlt Hin) as (c' & Hs & Hin').
      eapply (IH _ c' Hin'); [|exact Hf].
      intros E; apply Hsh. rewrite <- E. unfold shape_at. simpl in Hs |- *.
      destruct u; try discriminate. destruct (nth_error cs0 i); [|discriminate].
      injection Hs as ->; reflexivity.
  Qed.

  Lemma eqx_combine_first t0 rest t p s :
    eqx_combine isl (t0 :: rest) = Ok t -> obj_leaf isl' t0 p s ->
    sub t p = first_value (map (fun u => sub u p) (t0 :: rest)).
  Proof. intros H Hp. eapply combine_first; eauto. Qed.

  Lemma eqx_combine_interior t0 rest t p sh :
    eqx_combine isl (t0 :: rest) = Ok t -> interior isl' t0 p sh -> shape_at t p = Some sh.
  Proof. intros H Hp. eapply combine_interior; eauto. Qed.

  Lemma eqx_combine_err_iff t0 rest :
    eqx_combine isl (t0 :: rest) = Err ValueError <->
    exists u p sh, In u rest /\ interior isl' t0 p sh /\ shape_at u p <> Some sh.
  Proof.
    split.
    - intros H; apply combine_err in H; tauto.
    - intros (u & p & sh & H1 & H2 & H3); eapply combine_mismatch; eauto.
  Qed.

  Lemma eqx_combine_err_value t0 rest e :
    eqx_combine isl (t0 :: rest) = Err e -> e = ValueError.
  Proof. intros H; apply combine_err in H; tauto. Qed.
End Combine.

Section Fits.
  Context {A : Type}.
  Implicit Types (t u : tree A).

  Lemma Forall2_nth {X Y} (R : X -> Y -> Prop) l r :
    Forall2 R l r <-> length l = length r /\
    forall i x y, nth_error l i = Some x -> nth_error r i = Some y -> R x y.
  Proof.
    split.
    - induction 1 as [|x y l r Hxy _ [IH1 IH2]]; simpl; split; auto.
      + intros [|i] x y; discriminate.
      + intros [|i] x' y' Hx Hy; simpl in *; [congruence|eauto].
    - revert r; induction l as [|x l IH]; intros [|y r] [Hl H]; try discriminate; constructor.
      + apply (H 0); reflexivity.
      + apply IH; split; [simpl in Hl; lia|]. intros i; apply (H (S i)).
  Qed.

  Lemma fits_ext (d : tree unit) : forall t u,
    fits d t -> fits d u -> (forall p, slot d p -> sub t p = sub u p) -> t = u.
  Proof.
    induction d as [[]| |k ds IH] using tree_ind'; intros t u Ht Hu H.
    - assert (E := H [] eq_refl); simpl in E; congruence.
    - inv Ht; inv Hu; reflexivity.
    - inversion Ht as [| | |k1 ds1 cs HF1 E1]; inversion Hu as [| | |k2 ds2 cs0 HF2 E2]; subst. f_equal.
      apply Forall2_nth in HF1. apply Forall2_nth in HF2.
      destruct HF1 as [L1 HF1], HF2 as [L2 HF2].
      apply nth_error_ext; intros i.
      destruct (nth_error ds i) as [d|] eqn:Ed.
      + destruct (nth_error_ge_ex cs i) as [x Hx]; [apply nth_error_lt in Ed; lia|].
        destruct (nth_error_ge_ex cs0 i) as [y Hy]; [apply nth_error_lt in Ed; lia|].
        rewrite Hx, Hy. f_equal.
        rewrite Forall_forall in IH. apply (IH d (nth_error_In _ _ Ed)).
        * eapply HF1; eauto.
        * eapply HF2; eauto.
        * intros p Hp. specialize (H (i :: p)). unfold slot in H; simpl in H.
          rewrite Ed, Hx, Hy in H. apply H; exact Hp.
      + apply nth_error_None in Ed.
        rewrite (proj2 (nth_error_None cs i)), (proj2 (nth_error_None cs0 i)) by lia. reflexivity.
  Qed.

  Lemma first_value_app (a b : list (option (tree A))) :
    first_value (a ++ b) = first_value [first_value a; first_value b].
  Proof.
    induction a as [|x a IH]; simpl.
    - destruct (first_value b) as [[]|]; reflexivity.
    - destruct x as [[]|]; try reflexivity. rewrite IH. reflexivity.
  Qed.

  Lemma fits_column (d : tree unit) k ds (ts : list (tree A)) rows i :
    Forall (fits (Node k ds)) ts -> kids k (length ds) ts = Ok rows ->
    nth_error ds i = Some d -> Forall (fits d) (column i rows).
  Proof.
    intros HF Hk Hi. rewrite Forall_forall. intros c Hc.
    destruct (column_In _ _ _ _ _ _ Hk Hc) as (t & Ht & Hs).
    rewrite Forall_forall in HF. specialize (HF t Ht).
    inversion HF as [| | |k1 ds1 cs HF1 E1]; subst. simpl in Hs.
    destruct (nth_error cs i) as [c'|] eqn:E; [|discriminate]. injection Hs as ->.
    apply Forall2_nth in HF1. destruct HF1 as [_ HF1]; eapply HF1; eauto.
  Qed.

  Lemma combine_fits (d : tree unit) : forall t0 rest,
    Forall (fits d) (t0 :: rest) ->
    exists t, eqx_combine no_leaf (t0 :: rest) = Ok t /\ fits d t /\
      forall p, slot d p -> sub t p = first_value (map (fun u => sub u p) (t0 :: rest)).
  Proof.
    unfold eqx_combine.
    induction d as [[]| |k ds IH] using tree_ind'; intros t0 rest HF.
    - assert (Hc : tmapn (fun x : tree A => is_none x || no_leaf x)
          (fun x xs => Ok (combine_args (x :: xs))) t0 rest = Ok (combine_args (t0 :: rest))).
      { inversion HF as [|? ? Hf0 _]; subst. inversion Hf0; subst; reflexivity. }
      exists (combine_args (t0 :: rest)); split; [exact Hc|]. split.
      + clear Hc. induction HF as [|t ts Ht _ IHt]; simpl; [constructor|].
        inv Ht; simpl; [constructor|exact IHt].
      + intros p Hp. unfold slot in Hp. destruct p; [|discriminate].
        exact (combine_args_first (t0 :: rest)).
    - inversion HF as [|? ? Hf0 HFr]; subst. inversion Hf0; subst. exists TNone. simpl.
      assert (E : combine_args rest = TNone).
      { clear -HFr. induction HFr as [|t ts Ht _ IHt]; simpl; [reflexivity|]. inv Ht; simpl; auto. }
      rewrite E. repeat split; try constructor. intros p Hp; destruct p; discriminate.
    - inversion HF as [|? ? Hf0 HFr]; subst.
      inversion Hf0 as [| | |k1 ds1 cs H3 E1]; subst. cbn [tmapn is_none no_leaf orb].
      assert (Hlen : length cs = length ds) by (apply Forall2_nth in H3; destruct H3; lia).
      destruct (kids_ok k (length cs) rest) as [rows Hrows].
      { rewrite Forall_forall in *. intros t Ht. specialize (HFr t Ht).
        inversion HFr as [| | |k2 ds2 cs2 H4 E2]; subst. simpl.
        apply Forall2_nth in H4; destruct H4; f_equal; lia. }
      rewrite Hrows; cbn [bind].
      assert (Hkid : forall i c, nth_error cs i = Some c ->
        exists d t, nth_error ds i = Some d /\
          tmapn (fun x : tree A => is_none x || no_leaf x)
          (fun x xs => Ok (combine_args (x :: xs))) c (column i rows) = Ok t /\ fits d t /\
          forall p, slot d p -> sub t p = first_value (map (fun u => sub u p) (c :: column i rows))).
      { intros i c Hi. apply Forall2_nth in H3. destruct H3 as [Hl H3].
        destruct (nth_error_ge_ex ds i) as [d Hd]; [apply nth_error_lt in Hi; lia|].
        rewrite Forall_forall in IH.
        destruct (IH d (nth_error_In _ _ Hd) c (column i rows)) as (t & E1 & E2 & E3).
        { constructor; [eapply H3; eauto|]. rewrite Hlen in Hrows.
          eapply fits_column; eauto. }
        exists d, t; auto. }
      destruct (mapMi_ok (fun i c => tmapn (fun x : tree A => is_none x || no_leaf x)
          (fun x xs => Ok (combine_args (x :: xs))) c (column i rows)) cs 0) as [ys Hys].
      { intros i c Hi. destruct (Hkid i c Hi) as (d & t & _ & E & _); eauto. }
      rewrite Hys; cbn [rmap]. exists (Node k ys). split; [reflexivity|]. split.
      + constructor. apply Forall2_nth. split; [apply mapMi_length in Hys; lia|].
        intros i d y Hd Hy.
        destruct (nth_error_ge_ex cs i) as [c Hc]; [apply nth_error_lt in Hd; lia|].
        destruct (Hkid i c Hc) as (d' & t & Hd' & E & Hf & _).
        destruct (mapMi_nth _ _ _ _ _ _ Hys Hc) as (y' & Hy' & E'). cbn [Nat.add] in E'. congruence.
      + intros p Hp. unfold slot in Hp. destruct p as [|i p]; [discriminate|]. simpl in Hp.
        destruct (nth_error ds i) as [d|] eqn:Hd; [|discriminate].
        destruct (nth_error_ge_ex cs i) as [c Hc]; [apply nth_error_lt in Hd; lia|].
        destruct (Hkid i c Hc) as (d' & t & Hd' & E & Hf & Hv).
        assert (d' = d) by congruence; subst d'.
        destruct (mapMi_nth _ _ _ _ _ _ Hys Hc) as (y' & Hy' & E'). cbn [Nat.add] in E'.
        cbn [sub map]. rewrite Hy', Hc.
        assert (y' = t) by congruence; subst y'. rewrite (Hv p Hp). simpl map.
        rewrite (column_sub _ _ _ _ i p Hrows); [reflexivity|]. apply nth_error_lt in Hc; exact Hc.
  Qed.

  Lemma combine_regroup (d : tree unit) (xs ys : list (tree A)) :
    xs <> [] -> ys <> [] -> Forall (fits d) xs -> Forall (fits d) ys ->
    exists x y t, eqx_combine no_leaf xs = Ok x /\ eqx_combine no_leaf ys = Ok y /\
      eqx_combine no_leaf [x; y] = Ok t /\ eqx_combine no_leaf (xs ++ ys) = Ok t.
  Proof.
    intros Hx Hy HFx HFy.
    destruct xs as [|x0 xs]; [congruence|]. destruct ys as [|y0 ys]; [congruence|].
    destruct (combine_fits d x0 xs HFx) as (x & Ex & Fx & Vx).
    destruct (combine_fits d y0 ys HFy) as (y & Ey & Fy & Vy).
    destruct (combine_fits d x [y]) as (t & Et & Ft & Vt); [repeat constructor; auto|].
    destruct (combine_fits d x0 (xs ++ y0 :: ys)) as (t' & Et' & Ft' & Vt').
    { change (x0 :: xs ++ y0 :: ys) with ((x0 :: xs) ++ y0 :: ys).
      apply Forall_app; split; assumption. }
    exists x, y, t; repeat split; auto.
    replace t with t'; [exact Et'|].
    apply (fits_ext d); auto.
    intros p Hp. rewrite Vt', Vt by exact Hp. simpl map at 2. rewrite (Vx p Hp), (Vy p Hp).
    change (x0 :: xs ++ y0 :: ys) with ((x0 :: xs) ++ y0 :: ys).
    rewrite map_app. apply first_value_app.
  Qed.
End Fits.

Section Updates.
  Context {A : Type} (add : tree A -> tree A -> res (tree A)).

  Lemma apply_updates_leaf u p s : obj_leaf is_none u p s -> forall m m',
    apply_updates add m u = Ok m' ->
    exists x, sub m p = Some x /\
      match s with
      | TNone => sub m' p = Some x
      | _ => exists y, add x s = Ok y /\ sub m' p = Some y
      end.
  Proof.
    unfold apply_updates.
    induction 1 as [u Hu|a|k cs i c p s Hk Hn _ IH]; intros m m' H.
    - destruct u; try discriminate. simpl in H. injection H as <-. exists m; auto.
    - simpl in H. exists m; split; [reflexivity|]. exists m'; auto.
    - cbn [tmap2] in H. rewrite Hk in H. destruct m as [| |k' ms]; try discriminate.
      destruct (Nat.eqb_spec k k') as [<-|]; [|discriminate].
      apply rmap_ok in H; destruct H as [ys [Hz ->]].
      destruct (zipM_nth_l _ _ _ _ Hz _ _ Hn) as (y & z & Hy & Hzi & Hf).
      cbn [sub]. rewrite Hy, Hzi. apply IH; exact Hf.
  Qed.

  Lemma apply_updates_frame u p sh : interior is_none u p sh -> forall m m',
    apply_updates add m u = Ok m' -> shape_at m' p = Some sh /\ shape_at m p = Some sh.
  Proof.
    unfold apply_updates, shape_at.
    induction 1 as [H|k cs Hk|k cs i c p sh Hk Hn _ IH]; intros m m' H'.
    - discriminate.
    - cbn [tmap2] in H'. rewrite Hk in H'. destruct m as [| |k' ms]; try discriminate.
      destruct (Nat.eqb_spec k k') as [<-|]; [|discriminate].
      apply rmap_ok in H'; destruct H' as [ys [Hz ->]]. simpl.
      destruct (zipM_length _ _ _ _ Hz) as [-> ->]; auto.
    - cbn [tmap2] in H'. rewrite Hk in H'. destruct m as [| |k' ms]; try discriminate.
      destruct (Nat.eqb_spec k k') as [<-|]; [|discriminate].
      apply rmap_ok in H'; destruct H' as [ys [Hz ->]].
      destruct (zipM_nth_l _ _ _ _ Hz _ _ Hn) as (y & z & Hy & Hzi & Hf).
      cbn [sub]. rewrite Hy, Hzi. apply IH; exact Hf.
  Qed.

  Lemma apply_updates_none u : forall m m',
    leaves no_leaf u = [] -> apply_updates add m u = Ok m' -> m' = m.
  Proof.
    unfold apply_updates.
    induction u as [a| |k cs IH] using tree_ind'; intros m m' Hl H; simpl in *.
    - discriminate.
    - congruence.
    - destruct m as [| |k' ms]; try discriminate.
      destruct (Nat.eqb_spec k k') as [<-|]; [|discriminate].
      apply rmap_ok in H; destruct H as [ys [Hz ->]]. f_equal.
      revert ms ys Hz; induction IH as [|c cs Hc _ IHcs]; intros [|m ms] ys Hz; simpl in *; try discriminate.
      + injection Hz as <-; reflexivity.
      + bind_inv. apply app_eq_nil in Hl; destruct Hl as [Hl1 Hl2].
        f_equal; [eapply Hc; eauto|eapply IHcs; eauto].
  Qed.
End Updates.

Section Seq.
  Context {A : Type} (plus : A -> A -> A).
  Hypothesis plus_assoc : forall a b c, plus (plus a b) c = plus a (plus b c).

  Lemma apply_fits (m : tree A) : forall u,
    fits (treedef no_leaf m) u ->
    exists m', apply_updates (leaf_add plus) m u = Ok m' /\
      treedef no_leaf m' = treedef no_leaf m.
  Proof.
    unfold apply_updates.
    induction m as [a| |k cs IH] using tree_ind'; intros u Hu; simpl in Hu.
    - inv Hu; simpl; eauto.
    - inv Hu; simpl; eauto.
    - inv Hu. simpl. rewrite Nat.eqb_refl.
      match goal with H : Forall2 _ _ _ |- _ => rename H into HF end.
      assert (Hz : exists ms, zipM (tmap2 is_none (apply_update (leaf_add plus))) cs0 cs = Ok ms
         /\ map (treedef no_leaf) ms = map (treedef no_leaf) cs).
      { revert cs0 HF; induction IH as [|c cs Hc _ IHcs]; intros us HF; inv HF; simpl; eauto.
        destruct (Hc _ H1) as (m' & E1 & E2). rewrite E1; simpl.
        destruct (IHcs _ H3) as (ms & E3 & E4). rewrite E3; simpl.
        eexists; split; [reflexivity|]. simpl; congruence. }
      destruct Hz as (ms & -> & E). simpl. eexists; split; [reflexivity|]. simpl; congruence.
  Qed.

  Lemma apply_seq (m : tree A) : forall u1 u2 u12,
    let d := treedef no_leaf m in
    fits d u1 -> fits d u2 -> fits d u12 ->
    (forall p, slot d p -> sub u12 p = upd_sum plus (sub u1 p) (sub u2 p)) ->
    exists m', apply_updates (leaf_add plus) m u12 = Ok m' /\
      (m1 <- apply_updates (leaf_add plus) m u1 ;; apply_updates (leaf_add plus) m1 u2) = Ok m'.
  Proof.
    unfold apply_updates. cbv zeta.
    induction m as [a| |k cs IH] using tree_ind'; intros u1 u2 u12 H1 H2 H12 H; simpl in H1, H2, H12, H.
    - specialize (H [] eq_refl). simpl in H.
      inv H1; inv H2; inv H12; simpl in *; inv H; try discriminate; eauto.
      eexists; split; [reflexivity|]. simpl; f_equal; f_equal; apply plus_assoc.
    - inv H1; inv H2; inv H12; simpl; eauto.
    - inversion H1 as [| | |k1 ds1 cs0 HF0 X1]; inversion H2 as [| | |k2 ds2 cs1 HF1 X2];
        inversion H12 as [| | |k3 ds3 cs2 HF2 X3]; subst. simpl. rewrite Nat.eqb_refl.
      assert (Hs : exists ms ms1,
        zipM (tmap2 is_none (apply_update (leaf_add plus))) cs2 cs = Ok ms /\
        zipM (tmap2 is_none (apply_update (leaf_add plus))) cs0 cs = Ok ms1 /\
        zipM (tmap2 is_none (apply_update (leaf_add plus))) cs1 ms1 = Ok ms).
      { assert (Hp : forall i, i < length cs -> forall p c x0 x1 x2,
            nth_error cs i = Some c -> nth_error cs0 i = Some x0 -> nth_error cs1 i = Some x1 ->
            nth_error cs2 i = Some x2 -> slot (treedef no_leaf c) p ->
            sub x2 p = upd_sum plus (sub x0 p) (sub x1 p)).
        { intros i Hi p c x0 x1 x2 Ec E0 E1 E2 Hsl. specialize (H (i :: p)).
          unfold slot in H. simpl in H. rewrite nth_error_map, Ec in H. simpl in H.
          rewrite E0, E1, E2 in H. apply H; exact Hsl. }
        clear H. clear H1 H2 H12. revert cs0 cs1 cs2 HF0 HF1 HF2 Hp.
        induction IH as [|c cs Hc _ IHcs]; intros cs0 cs1 cs2 HA HB HC Hp; simpl in HA, HB, HC; inv HA; inv HB; inv HC; simpl.
        - eauto.
        - destruct (Hc y y0 y1) as (m' & E1 & E2); auto.
          { intros p Hsl. apply (Hp 0 ltac:(simpl; lia) p c y y0 y1 eq_refl eq_refl eq_refl eq_refl Hsl). }
          apply bind_ok in E2; destruct E2 as (m1 & E2 & E3).
          destruct (IHcs l' l'0 l'1) as (ms & ms1 & F1 & F2 & F3); auto.
          { intros i Hi p c' x0 x1 x2. apply (Hp (S i)). simpl; lia. }
          exists (m' :: ms), (m1 :: ms1). rewrite E1, E2; simpl. rewrite F1, F2; simpl.
          rewrite E3; simpl; rewrite F3; auto. }
      destruct Hs as (ms & ms1 & -> & -> & E). simpl. rewrite Nat.eqb_refl, E. simpl. eauto.
  Qed.
End Seq.
