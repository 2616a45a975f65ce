(** FArrays as a family of sequences of possibly indeterminate values; matrices as functions of their index tuples. *)
From Verif Require Import Base MatModel.

(** [Moved n]: moved from; only the size n is left *)
Inductive fval := Absent | Val (l : list (option Z)) | Moved (n : nat).
Definition fam := nat -> fval.
Definition fam0 : fam := fun _ => Absent.
Definition upd_at {A} (l : list A) (k : nat) (c : A) : list A := firstn k l ++ c :: skipn (S k) l.

Inductive v_step (F : fam) : fop -> fout -> fam -> Prop :=
| v_default i : F i = Absent -> v_step F (FDefault i) ONone (fupd F i (Val []))
| v_new i n : F i = Absent -> v_step F (FNew i n) ONone (fupd F i (Val (repeat None n)))
| v_fill i n v : F i = Absent -> v_step F (FFill i n v) ONone (fupd F i (Val (repeat (Some v) n)))
| v_copy i j l : F i = Absent -> F j = Val l -> v_step F (FCopy i j) ONone (fupd F i (Val l))
| v_movec i j l : F i = Absent -> F j = Val l -> v_step F (FMoveC i j) ONone (fupd (fupd F i (Val l)) j (Moved (length l)))
| v_assign i j l l' : F i = Val l' -> F j = Val l -> v_step F (FAssign i j) ONone (fupd F i (Val l))
| v_assign_moved i j n l : F i = Moved n -> F j = Val l -> (length l <> n \/ n = 0) -> v_step F (FAssign i j) ONone (fupd F i (Val l))
| v_movea i j l : i <> j -> F i <> Absent -> F j = Val l -> v_step F (FMoveA i j) ONone (fupd (fupd F i (Val l)) j (Moved (length l)))
| v_get i k l v : F i = Val l -> nth_error l k = Some (Some v) -> v_step F (FGet i k) (OVal v) F
| v_set i k l v : F i = Val l -> k < length l -> v_step F (FSet i k v) ONone (fupd F i (Val (upd_at l k (Some v))))
| v_size i l : F i = Val l -> v_step F (FSize i) (OSize (length l)) F
| v_eq i j l l' b : F i = Val (map Some l) -> F j = Val (map Some l') -> (b = true <-> l = l') -> v_step F (FEq i j) (OBool b) F
| v_destroy i : F i <> Absent -> v_step F (FDestroy i) ONone (fupd F i Absent).
Inductive v_run (F : fam) : list fop -> list fout -> fam -> Prop :=
| vr_nil : v_run F [] [] F
| vr_cons o a F1 os l F2 : v_step F o a F1 -> v_run F1 os l F2 -> v_run F (o :: os) (a :: l) F2.

(** what a state holds: object by object the cells its block holds *)
Definition shows (s : fst8) (F : fam) : Prop := forall i,
  match F i with
  | Absent => fs_o s i = None
  | Val l => exists o, fs_o s i = Some o /\ f_mx o = length l /\ match f_tab o with Some b => h_blk (fs_h s) b = Some l | None => l = [] end
  | Moved n => fs_o s i = Some (mkF None n)
  end.

(** index tuples *)
Definition in_range (dims idx : list Z) : Prop := Forall2 (fun d i => (0 <= i < d)%Z) dims idx.
