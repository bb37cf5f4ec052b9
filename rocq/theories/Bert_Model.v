(** Model of the encoder of examples/bert.ipynb (lines 134-150, 188-206, 248-285, 328-345, 407-442 of the notebook file), with dropout off
    ([enable_dropout=False], as in evaluation). Composed of the models of [MultiheadAttention] and [Linear].

    Simplifications. Numbers are any type with the operations used; [gelu] and [tanh] are arbitrary functions of numbers. Layer norms, and the
    embedder, which acts on every position by itself, are arbitrary functions of rows that may fail. Keys play no part without dropout. *)
From Verif Require Export Attention_Model.

Section Bert.
  Variables (V : Type) (zero : V) (add mul sub div vmax : V -> V -> V) (exp gelu tanh : V -> V) (sqrt : nat -> V) (fmin : V).
  Notation mat := (list (list V)).
  (** [nn.Dropout] with [inference=True] returns its input; keys are not used. *)
  Notation mha_call := (call_mha V unit zero add mul sub div vmax exp sqrt fmin (fun _ _ => []) (fun _ w => Ok w)).

  Record layer := mk_layer { attention : mha V; norm1 : list V -> res (list V);
                             mlp : linear V; output : linear V; norm2 : list V -> res (list V) }.

  (** Lines 276-285: the outer product of the mask with itself, once per head; nonzero is true. *)
  Definition make_self_attention_mask (heads : nat) (mask : list bool) : mask_t :=
    Mask3 heads (length mask) (length mask) (fun _ s S => nth s mask false && nth S mask false).
  (** Lines 248-274. *)
  Definition attention_block (l : layer) (x : mat) (mask : list bool) : res mat :=
    a <- mha_call (attention l) x x x (make_self_attention_mask (num_heads V (attention l)) mask) None None ;;
    mapM (fun p => norm1 l (zip add (fst p) (snd p))) (List.combine a x).
  (** A [Linear] on a vector. *)
  Definition linear_row (l : linear V) (r : list V) : res (list V) :=
    y <- call_linear V zero add mul l (Vec V r) ;; match y with Vec _ vs => Ok vs | Sc _ _ => Err ValueError end.
  (** Lines 188-206. *)
  Definition ff_block (l : layer) (r : list V) : res (list V) :=
    h <- linear_row (mlp l) r ;;
    o <- linear_row (output l) (map gelu h) ;;
    norm2 l (zip add o r).
  (** Lines 328-345. *)
  Definition call_layer (mask : list bool) (l : layer) (x : mat) : res mat :=
    y <- attention_block l x mask ;; mapM (ff_block l) y.
  (** The loop of lines 431-434. *)
  Fixpoint call_layers (mask : list bool) (ls : list layer) (x : mat) : res (list mat) :=
    match ls with
    | [] => Ok []
    | l :: ls' => y <- call_layer mask l x ;; ys <- call_layers mask ls' y ;; Ok (y :: ys)
    end.

  (** Lines 426-427. *)
  Definition token_mask (tokens : list nat) : list bool := map (fun t => negb (Nat.eqb t 0)) tokens.
  Record encoder := mk_encoder { embed : nat -> nat -> nat -> res (list V); layers : list layer; pooler : linear V }.
  (** Lines 407-442; three inputs of one length (jax.vmap checks each, the sum checks all). *)
  Definition encode (e : encoder) (tokens positions segments : list nat) : res (mat * list mat * list V) :=
    if negb (Nat.eqb (length positions) (length tokens) && Nat.eqb (length segments) (length tokens)) then Err TypeError else
    embs <- mapM (fun p => embed e (fst p) (fst (snd p)) (snd (snd p))) (List.combine tokens (List.combine positions segments)) ;;
    outs <- call_layers (token_mask tokens) (layers e) embs ;;
    match last outs embs with
    | [] => Err IndexError
    | first :: _ => p <- linear_row (pooler e) first ;; Ok (embs, outs, map tanh p)
    end.
End Bert.
