(** Whole programs of /repo/examples: read the instance file, build the model, search.  The parameters are the file, the width (second argument of the
    command line), the order of the nodes of a layer, the limit and the fuels of the models of the search.  Output is not modelled. *)
From Verif Require Import Base DDModel SearchModel SearchDyn KnapModel TspModel MispModel ColorModel ReadModel.

(** an edge of the file as a pair of array indices *)
Definition idx_edge (e : Z * Z) : nat * nat := (Z.to_nat (fst e), Z.to_nat (snd e)).

Section Run.
Context {St : Type} (srt : dd St -> list nat -> list nat) (dfuel : nat) (lim : nat -> bool) (fuel w : nat).

(** misp.cpp:108-208 (misp2.cpp:106, misp3.cpp:106, misp4.cpp:87, misp5.cpp:88): top is the number of vertices, every vertex has weight 1 (misp.cpp:140-142);
    [prog] is the model of the program (MispModel.v).  instance.adj, which the models compute from the edges, is that of the reader (C72).
    Without vertices GNSet(0,-1) is made (not followed) *)
Definition main_misp (prog : nat -> list (nat * nat) -> (nat -> Z) -> prob St) (file : option text) : res (@sst St * ending) :=
  do i <- readMisp file ;
  if (in_nv i <? 1)%Z then Err Unmodelled
  else search (prog (Z.to_nat (in_nv i)) (map idx_edge (in_edges i)) (fun _ => 1%Z)) srt dfuel lim fuel w None.

(** coloring.cpp:153-260 (coloring2.cpp:144, coloring3.cpp:155): K is the number of vertices, UB the value K of the file, or the number of vertices if the file
    has none (coloring.cpp:161, 176); [prog] is the model of the program (ColorModel.v) *)
Definition main_color (prog : nat -> list (nat * nat) -> nat -> option Z -> prob St) (file : option text) : res (@sst St * ending) :=
  do r <- readPy (-1) file ;
  let '(i, ub) := r in
  if (in_nv i <? 1)%Z then Err Unmodelled
  else
    let K := Z.to_nat (in_nv i) in
    let UB := if (ub <? 0)%Z then K else Z.to_nat ub in
    let PP := prog K (map idx_edge (in_edges i)) UB in
    searchD (PP None) (fun b => p_labels (PP (Some b))) srt dfuel lim fuel w None.

(** tsp.cpp:97-148, tsp_test2.cpp:127, tsp_test3.cpp:168: the matrix row by row; [prog] is the model of the program (TspModel.v, TourModel.v) *)
Definition cell (n : nat) (m : list Z) (i j : nat) : Z := nth (i * n + j) m 0%Z.
Definition main_tsp (prog : nat -> (nat -> nat -> Z) -> prob St) (rfuel : nat) (file : option text) : res (@sst St * ending) :=
  do i <- readTsp rfuel file ;
  let n := Z.to_nat (t_nv i) in search (prog n (cell n (t_d i))) srt dfuel lim fuel w None.
(** tsp_test4.cpp:193-266 *)
Definition main_tsp4 (prog : nat -> (nat -> nat -> Z) -> prob St) (rfuel : nat) (file : option text) : res (@sst St * ending) :=
  do i <- readTsp4 rfuel file ;
  let n := Z.to_nat (t_nv i) in search (prog n (cell n (t_d i))) srt dfuel lim fuel w None.
End Run.

Section Knap.
Variables (srt : dd sks -> list nat -> list nat) (dfuel : nat) (lim : nat -> bool) (fuel w : nat).
(** knapsack.cpp:68-133; with fewer items in the file than announced weight[I-1] is read out of bounds *)
Definition main_knap (file : option text) : res (@sst sks * ending) :=
  do i <- readKnap file ;
  do ni <- val (k_I i) ; do capa <- val (k_capa i) ;
  if (Z.of_nat (length (k_items i)) <? ni)%Z then Err UB
  else if (ni <? 1)%Z then Err Unmodelled
  else search (knapsack (map snd (k_items i)) (map fst (k_items i)) capa) srt dfuel lim fuel w None.
(** knapsack2.cpp:88-170; [le] is the comparison of the sort, lines 75-79; the primal bound is preset by getUB (line 113) *)
Definition main_knap2 (le : Z * Z -> Z * Z -> bool) (file : option text) : res (@sst sks * ending) :=
  do i <- readKnap2 le file ;
  do capa <- val (k_capa i) ;
  let weight := map snd (k_items i) in
  let profit := map fst (k_items i) in
  do ub <- kn2_getUB weight profit capa ;
  search (knapsack2 weight profit capa frac_double) srt dfuel lim fuel w (Some ub).
End Knap.
