(** Property C75: embedding tables (equinox/nn/_embedding.py: Embedding). *)
From Coq Require Import Lia List.
From Verif Require Import Embed_Model.
Import ListNotations.
Local Open Scope nat_scope.
Local Open Scope list_scope.

Section Props.
  Variables (V D Key : Type) (default_dtype : D) (normal : Key -> nat -> nat -> D -> arr V) (getitem : arr V -> Z -> res (arr V)).
  Notation make := (make_embedding V D Key default_dtype normal).

  (** C75. A table given directly is accepted exactly if it has two axes and the sizes given, if any, are those; it is used as it is, whatever dtype and
      key are. *)
  Theorem C75_given : forall num emb w dtype key e,
    make num emb (Some w) dtype key = Ok e <->
    exists m n, ashape V w = [m; n] /\ (num = None \/ num = Some (Z.of_nat m)) /\ (emb = None \/ emb = Some (Z.of_nat n)) /\
                e = {| num_embeddings := Z.of_nat m; embedding_size := Z.of_nat n; eweight := w |}.
  Proof.
    intros num emb w dtype key e. unfold make_embedding.
    destruct (ashape V w) as [ | m [ | n [ | ? ? ] ] ] eqn:Es;
      try (cbn; split; [ discriminate | intros (? & ? & F & _); discriminate ]).
    cbn [length Nat.eqb negb nth shape_is]. split.
    - intro H. exists m, n. split; [ reflexivity | ]. destruct num as [ a | ], emb as [ b | ]; revert H;
        repeat match goal with |- context [Z.eqb ?x ?y] => destruct (Z.eqb_spec x y); subst; cbn [andb negb] end;
        intro H; try discriminate; try congruence; injection H as <-; auto.
    - intros (m' & n' & E & Hm & Hn & ->). injection E as <- <-.
      destruct Hm as [ -> | -> ], Hn as [ -> | -> ]; rewrite !Z.eqb_refl; reflexivity.
  Qed.
  (** C75. All other tables raise ValueError. *)
  Theorem C75_given_refused : forall num emb w dtype key,
    (exists e, make num emb (Some w) dtype key = Ok e) \/ make num emb (Some w) dtype key = Err ValueError.
  Proof.
    intros num emb w dtype key. unfold make_embedding.
    destruct (negb _); [ now right | ]. destruct (negb _); [ now right | ]. left. eexists. reflexivity.
  Qed.
  (** C75. Without a table both sizes, not negative, and a key are required; ValueError is raised otherwise. The table is drawn with the key. *)
  Theorem C75_drawn : forall num emb dtype key,
    match num, emb, key with
    | Some m, Some n, Some k =>
        if Z.leb 0 m && Z.leb 0 n then
          make num emb None dtype key
            = Ok {| num_embeddings := m; embedding_size := n;
                    eweight := normal k (Z.to_nat m) (Z.to_nat n) (match dtype with Some d => d | None => default_dtype end) |}
        else make num emb None dtype key = Err ValueError
    | _, _, _ => make num emb None dtype key = Err ValueError
    end.
  Proof.
    intros [ m | ] [ n | ] dtype [ k | ]; try reflexivity. cbn.
    destruct (Z.leb_spec 0 m), (Z.leb_spec 0 n), (Z.ltb_spec m 0), (Z.ltb_spec n 0); cbn; reflexivity || lia.
  Qed.
  (** C75. However built, the table has the sizes recorded. *)
  Theorem C75_sizes : forall num emb w dtype key e, (forall k m n d, ashape V (normal k m n d) = [m; n]) ->
    make num emb w dtype key = Ok e ->
    exists m n, ashape V (eweight V e) = [m; n] /\ num_embeddings V e = Z.of_nat m /\ embedding_size V e = Z.of_nat n.
  Proof.
    intros num emb [ w | ] dtype key e Hn H.
    - apply C75_given in H as (m & n & Hs & _ & _ & ->). exists m, n. auto.
    - pose proof (C75_drawn num emb dtype key) as Hd. destruct num as [ m | ], emb as [ n | ], key as [ k | ]; try (rewrite H in Hd; discriminate).
      destruct (Z.leb_spec 0 m), (Z.leb_spec 0 n); cbn [andb] in Hd; rewrite H in Hd; try discriminate.
      injection Hd as ->. exists (Z.to_nat m), (Z.to_nat n). cbn. rewrite Hn, !Z2Nat.id by lia. auto.
  Qed.
  (** The library's indexing of an array with an integer in range, counted from the end if negative. *)
  Definition indexes_rows := forall (w : arr V) m rest (z : Z) i, ashape V w = m :: rest -> i < m -> (z = Z.of_nat i \/ z = Z.of_nat i - Z.of_nat m)%Z ->
    exists r, getitem w z = Ok r /\ ashape V r = rest /\ forall idx, aentry V r idx = aentry V w (i :: idx).
  (** C75. Called with an integer scalar in range, the result is that row of the table, of the embedding size. *)
  Theorem C75_lookup : forall num emb w dtype key e i z, (forall k m n d, ashape V (normal k m n d) = [m; n]) -> indexes_rows ->
    make num emb w dtype key = Ok e -> (Z.of_nat i < num_embeddings V e)%Z -> (z = Z.of_nat i \/ z = Z.of_nat i - num_embeddings V e)%Z ->
    exists r, call_embedding V Z getitem e (Scalar _ z) = Ok r /\ ashape V r = [Z.to_nat (embedding_size V e)] /\
              forall j, aentry V r [j] = aentry V (eweight V e) [i; j].
  Proof.
    intros num emb w dtype key e i z Hn Hg H Hi Hz. destruct (C75_sizes _ _ _ _ _ _ Hn H) as (m & n & Hs & Em & En).
    rewrite Em in Hi, Hz. destruct (Hg (eweight V e) m [n] z i Hs) as (r & E & Hr & He); [ lia | exact Hz | ].
    exists r. cbn [call_embedding]. rewrite E, Hr, En, Nat2Z.id. auto.
  Qed.
  (** C75. Anything but an array-like scalar raises ValueError. *)
  Theorem C75_not_scalar : forall e x, (forall z, x <> Scalar Z z) -> call_embedding V Z getitem e x = Err ValueError.
  Proof. intros e [ s | s | ] H; [ now destruct (H s) | reflexivity.. ]. Qed.
End Props.
Print Assumptions C75_given.
Print Assumptions C75_given_refused.
Print Assumptions C75_drawn.
Print Assumptions C75_sizes.
Print Assumptions C75_lookup.
Print Assumptions C75_not_scalar.

(** Non-vacuity: indexing of functions has the property assumed, and looks up rows. *)
Definition getitem_ex (w : arr nat) (z : Z) : res (arr nat) :=
  match ashape _ w with
  | [] => Err IndexError
  | m :: rest => let i := Z.to_nat (if Z.ltb z 0 then z + Z.of_nat m else z) in
                 Ok {| ashape := rest; aentry := fun idx => aentry _ w (i :: idx) |}
  end.
Example C75_ex_indexes : indexes_rows nat getitem_ex.
Proof.
  intros w m rest z i Hs Hi Hz. unfold getitem_ex. rewrite Hs. eexists. split; [ reflexivity | ]. split; [ reflexivity | ].
  intro idx. cbn. do 2 f_equal. destruct (Z.ltb_spec z 0); lia.
Qed.
Example C75_ex : let w := {| ashape := [3; 2]; aentry := fun idx => match idx with [i; j] => 10 * i + j | _ => 0 end |} in
  let make := make_embedding nat unit unit tt (fun _ m n _ => {| ashape := [m; n]; aentry := fun _ => 0 |}) in
  make (Some 3%Z) None (Some w) None None = Ok {| num_embeddings := 3%Z; embedding_size := 2%Z; eweight := w |} /\
  make (Some 4%Z) None (Some w) None None = Err ValueError /\
  make (Some (-1)%Z) (Some 2%Z) None None (Some tt) = Err ValueError /\
  (exists r, call_embedding nat Z getitem_ex {| num_embeddings := 3%Z; embedding_size := 2%Z; eweight := w |} (Scalar _ (-1)%Z) = Ok r /\
             aentry _ r [1] = 21).
Proof. repeat split. eexists. split; reflexivity. Qed.
