(** Vocabulary for training loops. *)
From Verif Require Export Tree_Facts Prim_Spec.

Section Train.
  Context {L St : Type}.
  Notation T := (tree L).
  Variable inexact : L -> bool.
  Variable VG : bool -> (list T -> res T) -> list T -> res (T * list T).
  Variable opt : list T -> St -> option (list T) -> res (list T * St).
  Variable add : T -> T -> res T.

  (** Add two lists entry by entry. *)
  Fixpoint adds (ws us : list T) : res (list T) :=
    match ws, us with
    | w :: ws', u :: us' => x <- add w u ;; xs <- adds ws' us' ;; Ok (x :: xs)
    | _, _ => Ok []
    end.

  (** The training loop on a plain list of parameters: [F b] is the loss on batch [b]. *)
  Fixpoint descend (F : list T -> list T -> res T) (given : bool) (ws : list T) (s : St) (data : list (list T))
      : res (list T * St * list T) :=
    match data with
    | [] => Ok (ws, s, [])
    | b :: data' =>
        '(v, gs) <- VG false (F b) ws ;;
        '(us, s1) <- opt gs s (if given then Some ws else None) ;;
        ws1 <- adds ws us ;;
        '(ws2, s2, vs) <- descend F given ws1 s1 data' ;;
        Ok (ws2, s2, v :: vs)
    end.
  (** The same when the loss [F st b] also depends on, and renews, a state. *)
  Fixpoint descend_st (F : T -> list T -> list T -> res T) (ws : list T) (st : T) (s : St) (data : list (list T))
      : res (list T * T * St) :=
    match data with
    | [] => Ok (ws, st, s)
    | b :: data' =>
        '(v, gs) <- VG true (F st b) ws ;;
        match v with
        | Node _ [_; st1] =>
            '(us, s1) <- opt gs s None ;;
            ws1 <- adds ws us ;;
            descend_st F ws1 st1 s1 data'
        | _ => Err ValueError
        end
    end.

  (** A leaf that is an inexact array. *)
  Definition is_param (t : T) : Prop := exists a, t = Leaf a /\ inexact a = true.
  (** Gradients: one array for each parameter. *)
  Definition grad_law : Prop := forall aux F ws v gs, Forall is_param ws -> VG aux F ws = Ok (v, gs) ->
    length gs = length ws /\ Forall is_Leaf gs.
  (** Optimisers: one array for each gradient. *)
  Definition opt_law : Prop := forall gs s ps us s', opt gs s ps = Ok (us, s') ->
    length us = length gs /\ Forall is_Leaf us.
  (** Addition: an inexact array plus an array is an inexact array. *)
  Definition add_law : Prop := forall w u x, is_param w -> is_Leaf u -> add w u = Ok x -> is_param x.
End Train.

(** [merges d st m]: [m] has at every leaf what either [d] or [st] has there, the other having [None]. *)
Inductive merges {L} : tree L -> tree L -> tree L -> Prop :=
| mg_left : forall a, merges (Leaf a) TNone (Leaf a)
| mg_right : forall a, merges TNone (Leaf a) (Leaf a)
| mg_none : merges TNone TNone TNone
| mg_node : forall k ds ss ms, merges_list ds ss ms -> merges (Node k ds) (Node k ss) (Node k ms)
with merges_list {L} : list (tree L) -> list (tree L) -> list (tree L) -> Prop :=
| ml_nil : merges_list [] [] []
| ml_cons : forall d ds s ss m ms, merges d s m -> merges_list ds ss ms ->
    merges_list (d :: ds) (s :: ss) (m :: ms).
Scheme merges_min := Minimality for merges Sort Prop
  with merges_list_min := Minimality for merges_list Sort Prop.
Combined Scheme merges_mut from merges_min, merges_list_min.
(** All leaves of a filter specification are Booleans. *)
Definition is_true_false {A} (s : tree A) (isb : A -> bool) : Prop := forall a, In (Leaf a) (leaves no_leaf s) -> isb a = true.
