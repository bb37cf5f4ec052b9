(** Model of examples/vision_transformer.ipynb: lines 148-154 (loaders), 174-204 (patch embedding), 224-273 (attention block), 293-362 (the
    transformer), 400-433 (training loop, its keys and batches), 607-622 (testing). Composed of the models of [MultiheadAttention] and [Linear].

    Simplifications. Numbers are any type with the operations used; [gelu] is an arbitrary function of numbers. Layer norms are arbitrary functions
    of rows that may fail. Dropout with [inference=False] is an arbitrary function of a key and an array, kept to the array's shape; with
    [inference=True] it returns its input. Attention is called without a key, with its dropout rate 0. Keys are paths of split indices from the given
    key. Patch sizes are positive; no axis of an image is empty. An epoch of a loader is a permutation of the data set, cut into batches. *)
From Coq Require Import QArith.
From Verif Require Export Attention_Model.
Local Open Scope nat_scope.
Local Open Scope list_scope.

Definition path := list nat.
(** [jr.split] *)
Definition psplit (key : path) (n : nat) : list path := map (fun i => key ++ [i]) (seq 0 n).

(** An array of three dimensions. *)
Record image (V : Type) := mk_image { channels : nat; height : nat; width : nat; pixel : nat -> nat -> nat -> V }.
Arguments mk_image {V}. Arguments channels {V}. Arguments height {V}. Arguments width {V}. Arguments pixel {V}.

(** Lines 196-201: [rearrange(x, "c (h ph) (w pw) -> (h w) (c ph pw)")]; sizes that are no multiples are an error of einops. *)
Definition rearrange {V} (p : nat) (x : image V) : res (list (list V)) :=
  if negb (Nat.eqb (height x mod p) 0 && Nat.eqb (width x mod p) 0) then Err (OtherError 0) else
  Ok (flat_map (fun h => map (fun w =>
        flat_map (fun c => flat_map (fun i => map (fun j => pixel x c (h * p + i) (w * p + j)) (seq 0 p)) (seq 0 p)) (seq 0 (channels x)))
      (seq 0 (width x / p))) (seq 0 (height x / p))).

Section Vit.
  Variables (V : Type) (zero : V) (add mul sub div vmax : V -> V -> V) (exp gelu : V -> V) (sqrt : nat -> V) (fmin : V).
  Variable dropout : path -> list (list V) -> list (list V).
  Notation mat := (list (list V)).
  Notation mha_call := (call_mha V path zero add mul sub div vmax exp sqrt fmin psplit (fun _ w => Ok w)).
  Notation through := (through V zero add mul).

  Record block := mk_block { norm1 : list V -> res (list V); norm2 : list V -> res (list V); attention : mha V; linear1 : linear V; linear2 : linear V }.
  Record vit := mk_vit { patch_size : nat; embedding : linear V; positional : mat; cls_token : list V; blocks : list block;
                         num_layers : nat; norm : list V -> res (list V); classes : linear V }.

  (** [nn.Dropout(...)(x, inference=not enable_dropout, key=key)] *)
  Definition drop (enable : bool) (key : path) (x : mat) : mat := if enable then dropout key x else x.
  Definition add_rows (x y : mat) : mat := map (fun p => zip add (fst p) (snd p)) (List.combine x y).
  (** Lines 252-273. *)
  Definition call_block (enable : bool) (b : block) (x : mat) (key : path) : res mat :=
    i <- mapM (norm1 b) x ;;
    a <- mha_call (attention b) i i i NoMask None None ;;
    let x := add_rows x a in
    i <- mapM (norm2 b) x ;;
    i <- through (linear1 b) i ;;
    let i := map (map gelu) i in
    match psplit key 2 with
    | [key1; key2] =>
        i <- through (linear2 b) (drop enable key1 i) ;;
        Ok (add_rows x (drop enable key2 i))
    | _ => Err ValueError
    end.
  (** Lines 353-354: [zip] stops at the shorter. *)
  Fixpoint call_blocks (enable : bool) (bs : list block) (keys : list path) (x : mat) : res mat :=
    match bs, keys with
    | b :: bs', k :: keys' => y <- call_block enable b x k ;; call_blocks enable bs' keys' y
    | _, _ => Ok x
    end.
  (** Lines 345-347: a single row is broadcast. *)
  Definition add_positional (pos x : mat) : res mat :=
    let s := firstn (length x) pos in
    if Nat.eqb (length s) (length x) then Ok (add_rows x s)
    else match s with [r] => Ok (map (fun y => zip add y r) x) | _ => Err TypeError end.
  (** Lines 338-362. *)
  Definition call_vit (v : vit) (enable : bool) (img : image V) (key : path) : res (list V) :=
    x <- rearrange (patch_size v) img ;;
    x <- through (embedding v) x ;;
    x <- add_positional (positional v) (cls_token v :: x) ;;
    match psplit key (num_layers v + 1) with
    | dropout_key :: attention_keys =>
        y <- call_blocks enable (blocks v) attention_keys (drop enable dropout_key x) ;;
        match y with
        | [] => Err IndexError
        | first :: _ =>
            r <- norm v first ;;
            o <- call_linear V zero add mul (classes v) (Vec V r) ;;
            match o with Vec _ vs => Ok vs | Sc _ _ => Err ValueError end
        end
    | [] => Err ValueError
    end.

  (** Making one: [init_w], [init_b] and [normal] draw from a key. *)
  Variable init_w : path -> nat -> nat -> list (list V).
  Variable init_b : path -> nat -> nat -> list V.
  Variable normal : path -> nat -> nat -> mat.
  Variable layer_norm : nat -> list V -> res (list V).
  Notation make_linear := (make_linear V path psplit init_w init_b).
  Notation make_mha := (make_mha V path psplit init_w init_b).
  (** Lines 233-250. *)
  Definition make_block (d hidden heads : nat) (key : path) : res block :=
    match psplit key 3 with
    | [key1; key2; key3] =>
        a <- make_mha heads d None None None None None false false false false key1 ;;
        l1 <- make_linear (Size d) (Size hidden) true key2 ;;
        l2 <- make_linear (Size hidden) (Size d) true key3 ;;
        Ok (mk_block (layer_norm d) (layer_norm d) a l1 l2)
    | _ => Err ValueError
    end.
  (** Lines 302-336; [chans] is the global [channels]. *)
  Definition make_vit (chans d hidden heads layers p num_patches num_classes : nat) (key : path) : res vit :=
    match psplit key 5 with
    | [key1; key2; key3; key4; key5] =>
        e <- make_linear (Size (p * p * chans)) (Size d) true key1 ;;
        bs <- mapM (fun _ => make_block d hidden heads key4) (seq 0 layers) ;;
        m <- make_linear (Size d) (Size num_classes) true key5 ;;
        Ok (mk_vit p e (normal key2 (num_patches + 1) d) (nth 0 (normal key3 1 d) []) bs layers (layer_norm d) m)
    | _ => Err ValueError
    end.
End Vit.
Arguments mk_block {V}. Arguments mk_vit {V}.

(** The keys given to dropout layers in one call with [num_layers] blocks: lines 349-354, 262-268. *)
Definition dropout_keys (layers : nat) (key : path) : list path :=
  match psplit key (layers + 1) with
  | d :: ks => d :: flat_map (fun k => psplit k 2) ks
  | [] => []
  end.
(** Line 421: [key, *subkeys = jr.split(key, num=batch_size + 1)], step by step. *)
Fixpoint train_keys (steps batch_size : nat) (key : path) : list (list path) :=
  match steps with
  | O => []
  | S s => match psplit key (batch_size + 1) with
           | k :: subkeys => subkeys :: train_keys s batch_size k
           | [] => []
           end
  end.

(** An epoch of a [DataLoader] with [drop_last=True]: lines 148-154. *)
Fixpoint batches {A} (count size : nat) (l : list A) : list (list A) :=
  match count with O => [] | S c => firstn size l :: batches c size (skipn size l) end.
Definition epoch {A} (size : nat) (order : list A) : list (list A) := batches (length order / size) size order.
(** Lines 411-415: [zip(range(num_steps), infinite_trainloader())]. [orders e] is the [e]-th shuffle, [e] the next epoch, [rest] what is left of the
    current one; [None]: out of fuel, which counts epochs. *)
Fixpoint steps_of {A} (fuel size : nat) (orders : nat -> list A) (steps e : nat) (rest : list (list A)) : option (list (list A)) :=
  match steps with
  | O => Some []
  | S s =>
      match rest with
      | b :: rest' => option_map (cons b) (steps_of fuel size orders s e rest')
      | [] =>
          (fix go (fuel e : nat) : option (list (list A)) :=
             match fuel with
             | O => None
             | S f => match epoch size (orders e) with
                      | b :: rest' => option_map (cons b) (steps_of f size orders s (S e) rest')
                      | [] => go f (S e)
                      end
             end) fuel e
      end
  end.
Definition train_batches {A} (fuel size : nat) (orders : nat -> list A) (steps : nat) : option (list (list A)) := steps_of fuel size orders steps 0 [].
(** Lines 609-610: [next(iter(testloader))] each time, a new shuffle. *)
Definition test_batches {A} (count size : nat) (orders : nat -> list A) : res (list (list A)) :=
  mapM (fun i => match epoch size (orders i) with b :: _ => Ok b | [] => Err (OtherError 1) end) (seq 0 count).
(** Lines 616-622: mean of the means. *)
Definition mean (l : list Q) : Q := (fold_right Qplus 0 l / inject_Z (Z.of_nat (length l)))%Q.
Definition accuracy {A} (right : A -> bool) (bs : list (list A)) : Q :=
  mean (map (fun b => mean (map (fun a => if right a then 1%Q else 0%Q) b)) bs).
