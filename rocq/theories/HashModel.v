(** Model of the hash tables [LHashtable] (src/lighthash.hpp) and [Hashtable] (src/hashtable.hpp).  Executable definitions only. *)
From Verif Require Import Base.

Definition U64 : N := 18446744073709551616%N.
Definition U32 : N := 4294967296%N.

(** src/lighthash.hpp:35-48 and src/hashtable.hpp:34-47 (the same list) *)
Definition primes : list N := [
  2; 547; 1229; 1993; 2749; 3581; 4421; 5281; 6143; 7001; 7927; 8837; 9739; 10663; 11677; 12569; 13513; 14533; 15413; 16411; 17393; 18329; 19427;
   20359; 21391; 22343; 23327; 24317; 25409; 26407; 27457; 28513; 29453; 30577; 31607; 32611; 33617; 34651; 35771; 36787; 37831; 38923; 39979; 41113;
   42083; 43063; 44203; 45317; 46451; 47533; 48619; 49667; 50767; 51817; 52937; 54001; 55109; 56197; 57193; 58243; 59369; 60509; 61637; 62791; 63823;
   65071; 66107; 67247; 68389; 69497; 70663; 71719; 72859; 73999; 75083; 76213; 77359; 78487; 79627; 80737; 81817; 82903; 84131; 85243; 86381; 87557;
   88807; 89867; 90989; 92177; 93187; 94351; 95443; 96587; 97829; 98953; 100129; 101287; 102329; 103613; 104743; 105953; 107053; 108271; 109397;
   110603; 111791; 112997; 114143; 115327; 116461; 117673; 118831; 119993; 121139; 122263; 123449; 124601; 125753; 126989; 128201; 129287; 130457;
   131707; 132857; 134059; 135281; 136393; 137483; 138647; 139907; 141067; 142183; 143503; 144737; 145933; 147137; 148361; 149423; 150589; 151717;
   152897; 154127; 155333; 156601; 157747; 159023; 160183; 161407; 162671; 163847; 165083; 166357; 167483; 168869; 170047; 171179; 172399; 173651;
   174799; 176087; 177211; 178489; 179581; 180751; 182089; 183289; 184477; 185651; 186761; 187973; 189253; 190471; 191677; 192853; 194017; 195311;
   196561; 197759; 198943; 200191; 201511; 202717; 203971; 205213; 206383; 207569; 208739; 209939]%N.

(** conversion of an unsigned 64-bit value to int: its low 32 bits read in two's complement (lighthash.hpp:60) *)
Definition to_int (x : N) : Z := let y := Z.of_N (x mod U32) in if (y <? 2147483648)%Z then y else (y - 4294967296)%Z.
(** conversion of an int to std::size_t (lighthash.hpp:62,64,66) *)
Definition to_size (x : Z) : N := Z.to_N (x mod 18446744073709551616)%Z.

(** src/lighthash.hpp:59-69, src/hashtable.hpp:59-69: the binary search.  [_primes[m]] outside the array is undefined. *)
Fixpoint pick_loop (fuel : nat) (sz low up : N) : res N :=
  match fuel with
  | O => Err OutOfFuel
  | S f =>
    if (low <=? up)%N then
      let m := to_int ((low + up) mod U64 / 2)%N in
      if ((m <? 0) || (Z.of_nat (length primes) <=? m))%Z then Err UB
      else
        let p := nth (Z.to_nat m) primes 0%N in
        if (sz <? p)%N then pick_loop f sz low (to_size (m - 1))
        else if (p <? sz)%N then pick_loop f sz (to_size (m + 1)) up
        else Ok (to_size m)
    else Ok low
  end.
(** src/lighthash.hpp:57-70, src/hashtable.hpp:57-70: the table size [_mxs] *)
Definition pick (fuel : nat) (sz : N) : res N :=
  let tsz := N.of_nat (length primes) in
  do low <- pick_loop fuel sz 0%N (tsz - 1)%N ;
  Ok (if (tsz <=? low)%N then nth (N.to_nat (tsz - 1)) primes 0%N else nth (N.to_nat low) primes 0%N).

Section Table.
(** [K] the key (a state), [V] the data: for [LHashtable] the node whose [get()] is the key, for [Hashtable] any data.
    [hash] = [Hash{}], [eqb] = [Equal{}], called with the stored key first. *)
Context {K V : Type} (hash : K -> N) (eqb : K -> K -> bool).

(** src/lighthash.hpp:49-54, src/hashtable.hpp:48-54.  A chain of [HTNode]s is a list; every HTNode belongs to one chain only (it is
    created by an insertion and linked in front of the current chain of its bucket).  The allocation of HTNodes on the pool never fails. *)
Record htab := mkH {
  h_tab : nat -> list (K * V);   (* _tab *)
  h_mgc : nat -> N;              (* _mgc *)
  h_mxs : N;                     (* _mxs *)
  h_magic : N;                   (* _magic, 32 bits *)
  h_nbp : N }.                   (* _nbp, 32 bits *)

(** src/lighthash.hpp:56-78, src/hashtable.hpp:56-78.  512 rounds are more than the search needs. *)
Definition h_new (sz : N) : res htab :=
  do mxs <- pick 512 sz ; Ok (mkH (fun _ => []) (fun _ => 0%N) mxs 1 0).

(** [Hash{}(key) % _mxs] *)
Definition h_at (t : htab) (k : K) : nat := N.to_nat (hash k mod h_mxs t).
(** [(_mgc[at]==_magic) ? _tab[at] : nullptr] *)
Definition h_chain (t : htab) (a : nat) : list (K * V) := if (h_mgc t a =? h_magic t)%N then h_tab t a else [].
(** the while loop of getLoc / get: src/lighthash.hpp:92-98, src/hashtable.hpp:107-113, 135-141 *)
Fixpoint c_find (k : K) (c : list (K * V)) : option V :=
  match c with [] => None | e :: c' => if eqb (fst e) k then Some (snd e) else c_find k c' end.
(** src/lighthash.hpp:87-100, src/hashtable.hpp:102-115: position, and the data when found *)
Definition h_getLoc (t : htab) (k : K) : nat * option V := (h_at t k, c_find k (h_chain t (h_at t k))).
(** src/hashtable.hpp:130-143 *)
Definition h_get (t : htab) (k : K) : option V := c_find k (h_chain t (h_at t k)).
(** src/lighthash.hpp:101-113 rawInsertAt and safeInsertAt, src/hashtable.hpp:116-122 safeInsertAt (release mode: the assertion is not compiled) *)
Definition h_insertAt (t : htab) (a : nat) (k : K) (v : V) : htab :=
  mkH (fupd (h_tab t) a ((k, v) :: h_chain t a)) (fupd (h_mgc t) a (h_magic t)) (h_mxs t) (h_magic t) ((h_nbp t + 1) mod U32).
(** src/hashtable.hpp:123-129 *)
Definition h_safeInsert (t : htab) (k : K) (v : V) : htab := h_insertAt t (h_at t k) k v.
(** src/hashtable.hpp:83-89: the loop of insert; overwrites the data of the first equal key *)
Fixpoint c_set (k : K) (v : V) (c : list (K * V)) : option (list (K * V)) :=
  match c with
  | [] => None
  | e :: c' => if eqb (fst e) k then Some ((fst e, v) :: c') else match c_set k v c' with Some c2 => Some (e :: c2) | None => None end
  end.
(** src/hashtable.hpp:79-93.  The overwriting branch changes a node of the current chain, so the bucket's chain is that of [_tab]. *)
Definition h_insert (t : htab) (k : K) (v : V) : htab :=
  let a := h_at t k in
  match c_set k v (h_chain t a) with
  | Some c => mkH (fupd (h_tab t) a c) (h_mgc t) (h_mxs t) (h_magic t) (h_nbp t)
  | None => h_insertAt t a k v
  end.
(** src/lighthash.hpp:114, src/hashtable.hpp:144 *)
Definition h_size (t : htab) : N := h_nbp t.
(** src/lighthash.hpp:115-151, src/hashtable.hpp:145-149 *)
Definition h_clear (t : htab) : htab := mkH (h_tab t) (h_mgc t) (h_mxs t) ((h_magic t + 1) mod U32) 0.
(** src/lighthash.hpp:152-161, src/hashtable.hpp:150-159: the entries handed to the function, in order.  The loop variable is 32 bits;
    [_mxs] is at most 209939. *)
Definition h_doOnAll (t : htab) : list (K * V) := flat_map (h_chain t) (seq 0 (N.to_nat (h_mxs t))).

(** One step of a client.  [HInsertAt] is the protocol of the library: getLoc, then rawInsertAt / safeInsertAt at that position. *)
Inductive hop := HGet (k : K) | HInsertAt (k : K) (v : V) | HSafeInsert (k : K) (v : V) | HInsert (k : K) (v : V) | HClear | HSize | HAll.
Inductive hout := OFound (v : option V) | OUnit | OSize (n : N) | OAll (l : list (K * V)).
Definition h_do (t : htab) (o : hop) : hout * htab :=
  match o with
  | HGet k => (OFound (snd (h_getLoc t k)), t)
  | HInsertAt k v => (OUnit, h_insertAt t (fst (h_getLoc t k)) k v)
  | HSafeInsert k v => (OUnit, h_safeInsert t k v)
  | HInsert k v => (OUnit, h_insert t k v)
  | HClear => (OUnit, h_clear t)
  | HSize => (OSize (h_size t), t)
  | HAll => (OAll (h_doOnAll t), t)
  end.
Fixpoint h_run (t : htab) (os : list hop) : list hout * htab :=
  match os with
  | [] => ([], t)
  | o :: os' => let '(r, t1) := h_do t o in let '(rs, t2) := h_run t1 os' in (r :: rs, t2)
  end.
End Table.
Arguments htab : clear implicits.
Arguments hop : clear implicits.
Arguments hout : clear implicits.
