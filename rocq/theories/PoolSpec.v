(** What a stack-like allocator should do. *)
From Verif Require Import Base PoolModel.
Local Open Scope N_scope.

(** a block: segment, first byte, number of bytes asked for *)
Record block := mkB { b_seg : nat; b_off : N; b_size : N }.
Definition holds (b : block) (sg : nat) (x : N) : Prop := b_seg b = sg /\ b_off b <= x < b_off b + b_size b.
Definition disjoint (b c : block) : Prop := forall sg x, holds b sg x -> holds c sg x -> False.
Definition pairwise_disjoint (L : list block) : Prop := forall i j b c, (i < j)%nat -> nth_error L i = Some b -> nth_error L j = Some c -> disjoint b c.

(** the blocks in use, oldest first; [mk k] is how many there were when mark k was taken, None: that mark is no longer usable because the pool
    was cleared below it *)
Record live := mkL { l_blocks : list block; l_mark : nat -> option nat }.
Definition live0 : live := mkL [] (fun _ => Some O).
Definition cut (l : live) (n : nat) : live :=
  mkL (firstn n (l_blocks l)) (fun k => match l_mark l k with Some m => if Nat.leb m n then Some m else None | None => None end).
Definition live_step (l : live) (o : pop) (r : option (nat * N)) : option live :=
  match o, r with
  | PAlloc sz, Some (sg, off) => Some (mkL (l_blocks l ++ [mkB sg off sz]) (l_mark l))
  | PMark k, None => Some (mkL (l_blocks l) (fupd (l_mark l) k (Some (length (l_blocks l)))))
  | PClear k, None => match l_mark l k with Some n => Some (cut l n) | None => None end
  | PReset, None => Some (cut l O)
  | _, _ => None
  end.
Fixpoint live_run (l : live) (os : list pop) (rs : list (option (nat * N))) : option live :=
  match os, rs with
  | [], [] => Some l
  | o :: os', r :: rs' => match live_step l o r with Some l1 => live_run l1 os' rs' | None => None end
  | _, _ => None
  end.
(** marks are used in a nested way: [n] blocks in use *)
Fixpoint nested (n : nat) (mk : nat -> option nat) (os : list pop) : bool :=
  match os with
  | [] => true
  | PAlloc _ :: r => nested (S n) mk r
  | PMark k :: r => nested n (fupd mk k (Some n)) r
  | PClear k :: r => match mk k with Some m => nested m (fun j => match mk j with Some a => if Nat.leb a m then Some a else None | None => None end) r | None => false end
  | PReset :: r => nested O (fun j => match mk j with Some a => if Nat.leb a O then Some a else None | None => None end) r
  end.
Definition huge : N := 4611686018427387904. (* 2^62 *)
Definition sane (os : list pop) : Prop := forall sz, In (PAlloc sz) os -> sz <= huge.
