(** Model of attention with rotary embeddings: the example in the documentation of [RotaryPositionalEmbedding], equinox/nn/_embedding.py
    lines 117-147. Composed of Attention_Model (with [process_heads]) and Rope_Model.

    - [jax.vmap(rope, in_axes=1, out_axes=1)] runs the Python code of the embedding once, for arrays of shape (seq, qk_size); the cache is used
      and changed by that one run, and all heads see the same tables. *)
From Verif Require Export Attention_Model Rope_Model.
Local Open Scope nat_scope.
Local Open Scope list_scope.

Section RopeAttention.
  Variables (V Th D : Type) (add mul : V -> V -> V) (opp : V -> V).
  Variables (fcos fsin : nat -> Th -> D -> nat -> nat -> V).
  Variable d_eqb : D -> D -> bool.
  Notation mat := (list (list V)).
  Notation rope_call := (Rope_Model.call V Th D add mul opp fcos fsin d_eqb).

  (** Lines 137-142, for an array of [h] heads whose rows have length [cols]. *)
  Definition rope_heads (r : rope Th D) (c : cache V D) (h cols : nat) (a : list mat) : res (list mat) * cache V D :=
    ((outs <- mapM (fun i => fst (rope_call r c cols (Attention_Model.head V i a))) (seq 0 h) ;;
      Ok (map (fun s => map (fun i => nth s (nth i outs []) []) (seq 0 h)) (seq 0 (length a)))),
     snd (rope_call r c cols (Attention_Model.head V 0 a))).
  (** Lines 128-144. *)
  Definition process (r : rope Th D) (c : cache V D) (h cols : nat) (q k v : list mat) : res (list mat * list mat * list mat) :=
    let '(q', c) := rope_heads r c h cols q in
    q' <- q' ;;
    k' <- fst (rope_heads r c h cols k) ;;
    Ok (q', k', v).
End RopeAttention.
