(** Model of the data loaders of the examples: [dataloader] of examples/train_rnn.ipynb, [train_dataloader], [eval_dataloader] and the evaluation
    loop of examples/parallelism.ipynb; [dataloader] of examples/score_based_diffusion.ipynb.

    - An array is the list of its rows. [np.random.permutation(indices)] in epoch number [e] is the list [perm e].
    - Generators: [items] computes the first [k] values yielded. [None] is no result within the given number of steps. *)
From Verif Require Export Base.

Section DataLoader.
  Context {A : Type}.
  (** [l[start:end]] for [0 <= start <= end]. *)
  Definition slice {X} (l : list X) (start end_ : nat) : list X := firstn (end_ - start) (skipn start l).
  (** [array[batch_perm]] *)
  Definition gather (a : list A) (idx : list nat) : res (list A) :=
    mapM (fun i => match nth_error a i with Some x => Ok x | None => Err IndexError end) idx.
  (** [arrays[0].shape[0]] and the assertion below it. *)
  Definition dataset_size (arrays : list (list A)) : res nat :=
    match arrays with
    | [] => Err IndexError
    | a :: _ => if forallb (fun b => Nat.eqb (length b) (length a)) arrays then Ok (length a) else Err AssertionError
    end.

  Variable perm : nat -> list nat.
  (** The two while loops, resumed in epoch [e] at [start] with [end = start + batch_size], until [k] more batches have been yielded. *)
  Fixpoint resume (fuel : nat) (arrays : list (list A)) (n b : nat) (k e start : nat) : option (res (list (list (list A)))) :=
    match k with
    | O => Some (Ok [])
    | S k' =>
        match fuel with
        | O => None
        | S fuel =>
            if Nat.leb (start + b) n then
              match mapM (fun a => gather a (slice (perm e) start (start + b))) arrays with
              | Ok batch => option_map (rmap (cons batch)) (resume fuel arrays n b k' e (start + b))
              | Err x => Some (Err x)
              end
            else resume fuel arrays n b k (S e) 0
        end
    end.
  Definition train_items (fuel : nat) (arrays : list (list A)) (b k : nat) : option (res (list (list (list A)))) :=
    match dataset_size arrays with Ok n => resume fuel arrays n b k 0 0 | Err x => Some (Err x) end.

  (** [dataloader] of examples/score_based_diffusion.ipynb lines 262-274, of one array: the inner loop runs while [end < dataset_size]. *)
  Fixpoint resume_strict (fuel : nat) (data : list A) (n b : nat) (k e start : nat) : option (res (list (list A))) :=
    match k with
    | O => Some (Ok [])
    | S k' =>
        match fuel with
        | O => None
        | S fuel =>
            if Nat.ltb (start + b) n then
              match gather data (slice (perm e) start (start + b)) with
              | Ok batch => option_map (rmap (cons batch)) (resume_strict fuel data n b k' e (start + b))
              | Err x => Some (Err x)
              end
            else resume_strict fuel data n b k (S e) 0
        end
    end.
  Definition diffusion_items (fuel : nat) (data : list A) (b k : nat) : option (res (list (list A))) := resume_strict fuel data (length data) b k 0 0.

  (** [eval_dataloader], to its end. *)
  Fixpoint eval_from (fuel : nat) (arrays : list (list A)) (n b start : nat) : option (list (list (list A))) :=
    if Nat.ltb start n then
      match fuel with
      | O => None
      | S fuel => option_map (cons (map (fun a => slice a start (start + b)) arrays)) (eval_from fuel arrays n b (start + b))
      end
    else Some [].
  Definition eval_items (fuel : nat) (arrays : list (list A)) (b : nat) : option (res (list (list (list A)))) :=
    match dataset_size arrays with Ok n => option_map Ok (eval_from fuel arrays n b 0) | Err x => Some (Err x) end.

  (** The last cell: the average of the losses of the batches, given as their sum and number. *)
  Definition evaluate {V} (zero : V) (add : V -> V -> V) (loss : list (list A) -> V) (batches : list (list (list A))) : V * nat :=
    fold_left (fun s x => (add (fst s) (loss x), S (snd s))) batches (zero, 0).
End DataLoader.
