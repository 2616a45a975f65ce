(** The programs of /repo/test run on the models: a check of the models against what the authors expect.  Each example is one program (or one function
    of it); the expected values are those the program compares with, or, where it only prints, the elements a reader of the test expects. *)
From Verif Require Import Base BitModel SetModel SubModel VecModel MSortModel.
Local Open Scope Z_scope.

(** a list of steps that each may fail *)
Fixpoint steps {A B} (f : A -> B -> res A) (a : A) (l : list B) : res A := match l with [] => Ok a | x :: r => do a <- f a x ; steps f a r end.
Definition upto (n : nat) : list Z := map Z.of_nat (seq 0 n).

(** test/test1.cpp:17-25: 32 times push_back on a vector of capacity 32, then v[0] .. v[31] *)
Example test1 : (do s <- steps (fun s x => do (_, s) <- v_push 0 18446744073709551616 s 0%nat x ; Ok s) (v_new 0 vst0 0 32) (upto 32) ; v_all s 0) = Ok (upto 32).
Proof. vm_compute. reflexivity. Qed.
(** test/test2.cpp:17-25: v[i] = i*2 on a vector of the default capacity 0 *)
Example test2 : (do s <- steps (fun s x => v_set 0 4294967296 s 0%nat (Z.to_N x) (x * 2)) (v_new 0 vst0 0 0) (upto 32) ; v_all s 0) = Ok (map (fun x => x * 2) (upto 32)).
Proof. vm_compute. reflexivity. Qed.
(** test/test3.cpp:13-31: NatSet *)
Example test3 :
  let mk := ns_ofList 1 in
  (do s0 <- mk [] ; do s1 <- mk [1] ; do s2 <- mk [2] ; let s3 := ns_union s1 s2 in do s4 <- mk [63] ; let s5 := ns_union s3 s4 in do s6 <- ns_ofList 2 [64] ;
   do l0 <- ns_list s0 ; do l1 <- ns_list s1 ; do l2 <- ns_list s2 ; do l3 <- ns_list s3 ; do l4 <- ns_list s4 ; do l5 <- ns_list s5 ; do l6 <- ns_list s6 ;
   Ok [l0; l1; l2; l3; l4; l5; l6]) = Ok [[]; [1]; [2]; [1; 2]; [63]; [1; 2; 63]; [64]].
Proof. vm_compute. reflexivity. Qed.
(** test/test4.cpp:13-33: GNSet; remove(2) on {64} changes nothing *)
Example test4 :
  (do s0 <- g_ofList [] ; do s1 <- g_ofList [1] ; do s2 <- g_ofList [2] ; do s3 <- g_or s1 s2 ; do s4 <- g_ofList [63] ; do s5 <- g_or s3 s4 ; do s6 <- g_ofList [64] ;
   do s7 <- g_remove s6 2 ;
   do l0 <- g_list s0 ; do l1 <- g_list s1 ; do l2 <- g_list s2 ; do l3 <- g_list s3 ; do l4 <- g_list s4 ; do l5 <- g_list s5 ; do l6 <- g_list s6 ; do l7 <- g_list s7 ;
   Ok [l0; l1; l2; l3; l4; l5; l6; l7]) = Ok [[]; [1]; [2]; [1; 2]; [63]; [1; 2; 63]; [64]; [64]].
Proof. vm_compute. reflexivity. Qed.
(** test/test5.cpp:8-23: mergeSort, the array in use and the one in the comment *)
Example test5 : msort_list Z.ltb 0 [1; 2; 3] = [1; 2; 3] /\
  msort_list Z.ltb 0 [1; 30; -4; 3; 5; -4; 1; 6; -8; 2; -5; 64; 1; 92] = [-8; -5; -4; -4; 1; 1; 1; 2; 3; 5; 6; 30; 64; 92].
Proof. split; vm_compute; reflexivity. Qed.
(** test/test6.cpp: t0 .. t13, the result of ofs - s compared with != *)
Definition sub_test (n : nat) (s g : list Z) (ofs : Z) : res bool :=
  do a <- ns_ofList n s ; do b <- ns_ofList n g ; do x <- ns_sub ofs a ; Ok (ns_eq b x).
Example test6 : Forall (fun r => r = Ok true)
  [sub_test 2 [0; 32; 33; 40; 45; 55; 74] [17; 36; 46; 51; 58; 59; 91] 91; sub_test 2 [0; 1; 3; 5] [115; 117; 119; 120] 120;
   sub_test 2 [115; 117; 119] [1; 3; 5] 120; sub_test 4 [0; 1; 3; 5] [195; 197; 199; 200] 200; sub_test 4 [60; 61; 63] [140; 139; 137] 200;
   sub_test 2 [0] [1] 1; sub_test 2 [0; 50] [14; 64] 64; sub_test 3 [0; 98] [30; 128] 128; sub_test 3 [0; 98] [64; 162] 162;
   sub_test 3 [0; 98] [29; 127] 127; sub_test 3 [0; 63] [64; 127] 127; sub_test 3 [0; 127] [64; 191] 191; sub_test 4 [0; 127] [65; 192] 192;
   sub_test 3 [0; 1; 3; 7; 12; 20; 30; 45; 61; 85; 107; 128] [21; 42; 64; 88; 104; 119; 129; 137; 142; 146; 148; 149] 149].
Proof. repeat constructor. Qed.
(** test/test7.cpp: t0 .. t4, removeBelow *)
Example test7 : map (fun p => do s <- g_ofList [0; 32; 33; 40; 45; 55; 74; 80; 110] ; do s2 <- g_removeBelow (g_copy s) p ; g_list s2) [41; 40; 74; 75; 0] =
  map Ok [[45; 55; 74; 80; 110]; [40; 45; 55; 74; 80; 110]; [74; 80; 110]; [80; 110]; [0; 32; 33; 40; 45; 55; 74; 80; 110]].
Proof. vm_compute. reflexivity. Qed.
