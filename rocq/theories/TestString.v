(** The test cases of /repo/test/string.cpp, run in the model. They are a check of the model against what the
    authors expect of the code; the properties are in StringProps.v.

    At the end of each test case its strings are destroyed; nothing may be left in memory. *)
From stdpp Require Import prelude gmap.
From Coq Require Import ZArith Ascii String.
From Verif Require Import Cpp StringModel StringOrder OutModel.
Local Open Scope nat_scope.

(** pointers of 8 bytes; a std::size_t of 12 bits, as max_size() is computed in unary *)
Local Instance chars : StrCfg := {| psz := 8; wbits := 12; alloc_fails := λ _, false; running := λ _, 0 |}.

Definition require (b : bool) : M world unit := if b then ret tt else stuck NoObject.
Definition txt (s : string) : list char := list_byte_of_string s.
Definition ch (c : ascii) : char := byte_of_ascii c.
Definition same_char (a b : char) : bool := (uchar a =? uchar b)%N.
(** what iterators of a std::string or of a literal see *)
Definition vals (s : string) : range := RExt (Some <$> txt s).
Definition input (s : string) : list (option char) := Some <$> txt s.
Definition lit (s : string) : operand := AView (vals s).
(** REQUIRE(s == "...") *)
Definition is (x : nat) (s : string) : M world unit := b <- str_eq (AStr x) (lit s) ;; require b.
Definition is_empty (x : nat) (e : bool) : M world unit := b <- str_empty x ;; require (Bool.eqb b e).
Definition has_size (x n : nat) : M world unit := k <- str_size x ;; require (k =? n).
Definition same (x y : nat) : M world unit := b <- str_eq (AStr x) (AStr y) ;; require b.
Definition differ (x y : nat) : M world unit := b <- str_ne (AStr x) (AStr y) ;; require b.
Definition returns (m : M world nat) (n : nat) : M world unit := r <- m ;; require (r =? n).
(** std::strlen(s.c_str()) == n *)
Fixpoint strlen (x i fuel : nat) : M world nat :=
  match fuel with
  | 0 => stuck OutOfBounds
  | S f => c <- str_c_str x i ;; if same_char c NUL then ret i else strlen x (S i) f
  end.
Definition has_strlen (x : nat) : M world unit := n <- str_size x ;; k <- strlen x 0 200 ;; require (k =? n).
Fixpoint finish (xs : list nat) : M world unit :=
  match xs with [] => ret tt | x :: xs' => str_destroy x ;;; finish xs' end.
(** x = l + r: the result is moved into x *)
Definition plus_into (x : nat) (l r : range) : M world unit :=
  str_concat 99 l r ;;; str_move_assign x 99 ;;; str_destroy 99.
Definition whole (x : nat) : M world range := n <- str_size x ;; ret (RSub x 0 n).
Definition passes (t : M world unit) : bool :=
  match t init_world with
  | Ok _ w => bool_decide (dom (objs w) = ∅) && bool_decide (dom (mem w) = ∅)
  | _ => false
  end.

(** test/string.cpp:18-40 "string ctor" *)
Definition test_ctor : M world unit :=
  str_new 0 ;;; is_empty 0 true ;;; returns (strlen 0 0 200) 0 ;;;
  str_new_range 1 (vals "Hello World") ;;; is 1 "Hello World" ;;;
  str_new_input 2 (input "Hello World") ;;; same 2 1 ;;;
  (r <- whole 1 ;; str_new_range 3 r) ;;; same 3 1 ;;;
  str_new_fill 4 5 (ch "x") ;;; is 4 "xxxxx" ;;;
  str_new_range 5 (vals "abcde") ;;; is 5 "abcde" ;;;
  finish [5; 4; 3; 2; 1; 0].
Example string_ctor : passes test_ctor = true. Proof. by vm_compute. Qed.

(** test/string.cpp:42-66 "string copy" *)
Definition x24 : string := "xxxxxxxxxxxxxxxxxxxxxxxx".
Definition test_copy : M world unit :=
  str_new_range 0 (vals "Hello World") ;;; has_size 0 11 ;;; has_strlen 0 ;;;
  str_new_copy 1 0 ;;; same 0 1 ;;;
  str_new 2 ;;; str_copy_assign 2 1 ;;; same 2 1 ;;;
  str_new_range 3 (vals x24) ;;; has_strlen 3 ;;; has_size 3 24 ;;;
  str_new_copy 4 3 ;;; has_size 4 24 ;;; same 4 3 ;;;
  str_new 5 ;;; str_copy_assign 5 4 ;;; has_size 5 24 ;;; same 5 3 ;;;
  finish [5; 4; 3; 2; 1; 0].
Example string_copy : passes test_copy = true. Proof. by vm_compute. Qed.

(** test/string.cpp:68-94 "string move" *)
Definition test_move : M world unit :=
  str_new_range 0 (vals "Hello World") ;;; has_size 0 11 ;;; has_strlen 0 ;;;
  str_new_move 1 0 ;;; same 0 1 ;;;
  str_new 2 ;;; str_move_assign 2 1 ;;; same 2 1 ;;;
  str_new_range 3 (vals x24) ;;; has_strlen 3 ;;; has_size 3 24 ;;;
  str_new_move 4 3 ;;; is_empty 3 true ;;; has_size 4 24 ;;; differ 4 3 ;;;
  str_new 5 ;;; str_move_assign 5 4 ;;; is_empty 4 true ;;; has_size 5 24 ;;; differ 5 3 ;;;
  finish [5; 4; 3; 2; 1; 0].
Example string_move : passes test_move = true. Proof. by vm_compute. Qed.

(** test/string.cpp:96-120 "string swapping" *)
Definition X24 : string := "XXXXXXXXXXXXXXXXXXXXXXXX".
Definition swapped (x y : nat) (a b : string) : M world unit :=
  str_new_range x (vals a) ;;; str_new_range y (vals b) ;;; str_swap x y ;;; is x b ;;; is y a.
Definition test_swap : M world unit :=
  swapped 0 1 "Hello" "World" ;;; swapped 2 3 "Test" x24 ;;; swapped 4 5 x24 "Test" ;;; swapped 6 7 x24 X24 ;;;
  finish [7; 6; 5; 4; 3; 2; 1; 0].
Example string_swapping : passes test_swap = true. Proof. by vm_compute. Qed.

(** test/string.cpp:122-143 "string shrinking"; push_back returns back() *)
Definition pushes (x : nat) (c : char) : M world unit :=
  str_push_back x c ;;; r <- str_back x ;; require (same_char r c).
Fixpoint push_all (x cap i n : nat) : M world unit :=
  match n with
  | 0 => ret tt
  | S n' => pushes x (ch (ascii_of_nat (97 + i))) ;;; returns (str_capacity x) cap ;;; push_all x cap (S i) n'
  end.
Definition test_shrink : M world unit :=
  str_new 0 ;;; capacity <- str_capacity 0 ;;
  push_all 0 capacity 0 capacity ;;;
  str_shrink_to_fit 0 ;;; returns (str_capacity 0) capacity ;;;
  pushes 0 (ch "X") ;;; (c <- str_capacity 0 ;; require (capacity <? c)) ;;;
  str_pop_back 0 ;;; (c <- str_capacity 0 ;; require (capacity <? c)) ;;;
  str_shrink_to_fit 0 ;;; returns (str_capacity 0) capacity ;;; has_size 0 capacity ;;;
  finish [0].
Example string_shrinking : passes test_shrink = true. Proof. by vm_compute. Qed.

(** test/string.cpp:145-153 "string io" *)
Example string_io :
  match str_new_range 0 (vals "Hello world") init_world with
  | Ok _ w => match str_out 0 (w, OStream [] 0 (ch " ") false None false false false) with
              | Ok _ r => written r.2 = txt "Hello world"
              | _ => False
              end
  | _ => False
  end.
Proof. by vm_compute. Qed.

(** test/string.cpp:155-167 "string clear" *)
Definition test_clear : M world unit :=
  str_new 0 ;;; is_empty 0 true ;;; str_clear 0 ;;; is_empty 0 true ;;;
  str_assign_range 0 (vals "Hello World") ;;; is_empty 0 false ;;; str_clear 0 ;;; is_empty 0 true ;;;
  finish [0].
Example string_clear : passes test_clear = true. Proof. by vm_compute. Qed.

(** test/string.cpp:169-181 "string erase" *)
Definition test_erase : M world unit :=
  str_new_range 0 (vals "XXXHelloXXX WorldXXX") ;;;
  returns (str_erase 0 0 3) 0 ;;; is 0 "HelloXXX WorldXXX" ;;;
  (i <- str_erase 0 5 8 ;; c <- str_index 0 i ;; require (same_char c (ch " "))) ;;; is 0 "Hello WorldXXX" ;;;
  (n <- str_size 0 ;; i <- str_erase 0 (n - 3) n ;; k <- str_size 0 ;; require (i =? k)) ;;; is 0 "Hello World" ;;;
  finish [0].
Example string_erase : passes test_erase = true. Proof. by vm_compute. Qed.

(** test/string.cpp:183-216 "string insert" *)
Definition test_insert : M world unit :=
  str_new_range 0 (vals "HelloWorld") ;;;
  returns (str_insert_input 0 0 (input "XXX")) 0 ;;; is 0 "XXXHelloWorld" ;;;
  returns (str_insert_input 0 8 (input "XXX")) 8 ;;; is 0 "XXXHelloXXXWorld" ;;;
  (n <- str_size 0 ;; i <- str_insert_input 0 n (input "XXX") ;; k <- str_size 0 ;; require (i =? k - 3)) ;;;
  is 0 "XXXHelloXXXWorldXXX" ;;;
  returns (str_insert_fill 0 0 2 (ch "Y")) 0 ;;; is 0 "YYXXXHelloXXXWorldXXX" ;;;
  returns (str_insert_fill 0 10 2 (ch "Y")) 10 ;;; is 0 "YYXXXHelloYYXXXWorldXXX" ;;;
  (n <- str_size 0 ;; i <- str_insert_fill 0 n 2 (ch "Y") ;; k <- str_size 0 ;; require (i =? k - 2)) ;;;
  is 0 "YYXXXHelloYYXXXWorldXXXYY" ;;;
  returns (str_insert_range 0 11 (vals "abc")) 11 ;;; is 0 "YYXXXHelloYabcYXXXWorldXXXYY" ;;;
  (n <- str_size 0 ;; i <- str_insert_range 0 (n - 1) (vals "abcdefghijklmnopqrstuvwxyz") ;;
   k <- str_size 0 ;; require (i =? k - 27)) ;;;
  is 0 "YYXXXHelloYabcYXXXWorldXXXYabcdefghijklmnopqrstuvwxyzY" ;;;
  finish [0].
Example string_insert : passes test_insert = true. Proof. by vm_compute. Qed.

(** test/string.cpp:218-265 "string append" *)
Definition test_append : M world unit :=
  str_new 0 ;;;
  str_append_input 0 (input "Hello") ;;; is 0 "Hello" ;;;
  str_append_input 0 (input "cruel") ;;; is 0 "Hellocruel" ;;;
  str_append_input 0 (input "World") ;;; is 0 "HellocruelWorld" ;;;
  str_append_fill 0 3 (ch "X") ;;; is 0 "HellocruelWorldXXX" ;;;
  str_new 1 ;;;
  str_append_range 1 (vals "Hello") ;;; is 1 "Hello" ;;;
  str_append_range 1 (vals "cruel") ;;; is 1 "Hellocruel" ;;;
  str_append_range 1 (vals "World") ;;; is 1 "HellocruelWorld" ;;;
  str_push_back 1 (ch "!") ;;; is 1 "HellocruelWorld!" ;;;
  (r <- whole 0 ;; str_append_range 1 r) ;;; is 1 "HellocruelWorld!HellocruelWorldXXX" ;;;
  str_new 2 ;;;
  (r <- whole 2 ;; plus_into 2 r (vals "Hello")) ;;; is 2 "Hello" ;;;
  (r <- whole 2 ;; plus_into 2 r (vals "cruel")) ;;; is 2 "Hellocruel" ;;;
  (r <- whole 2 ;; plus_into 2 r (vals "World")) ;;; is 2 "HellocruelWorld" ;;;
  (r <- whole 2 ;; plus_into 2 r (vals "!")) ;;; is 2 "HellocruelWorld!" ;;;
  str_new 3 ;;;
  (r <- whole 3 ;; plus_into 3 (vals "!") r) ;;; is 3 "!" ;;;
  (r <- whole 3 ;; plus_into 3 (vals "World") r) ;;; is 3 "World!" ;;;
  (r <- whole 3 ;; plus_into 3 (vals "cruel") r) ;;; is 3 "cruelWorld!" ;;;
  (r <- whole 3 ;; plus_into 3 (vals "Hello") r) ;;; is 3 "HellocruelWorld!" ;;;
  finish [3; 2; 1; 0].
Example string_append : passes test_append = true. Proof. by vm_compute. Qed.

(** test/string.cpp:267-280 "string assign" *)
Definition test_assign : M world unit :=
  str_new 0 ;;; str_assign_input 0 (input "Hello World") ;;; is 0 "Hello World" ;;;
  str_assign_fill 0 3 (ch "X") ;;; is 0 "XXX" ;;;
  str_assign_range 0 (vals "Hello World") ;;; is 0 "Hello World" ;;;
  finish [0].
Example string_assign : passes test_assign = true. Proof. by vm_compute. Qed.

(** test/string.cpp:282-363 "string replace": the three kinds of ranges, and counts *)
Definition replaced (by_range : nat → nat → nat → string → M world unit) (x : nat) (a b c d : string) (n : nat) : M world unit :=
  str_new_range x (vals a) ;;;
  by_range x 0 n "Hello"%string ;;; is x b ;;;
  by_range x 6 (6 + n) "cruel"%string ;;; is x c ;;;
  (k <- str_size x ;; by_range x (k - n) k "World"%string) ;;; is x d.
Definition all_replaced (by_range : nat → nat → nat → string → M world unit) : M world unit :=
  replaced by_range 0 "XXX XXX XXX" "Hello XXX XXX" "Hello cruel XXX" "Hello cruel World" 3 ;;;
  replaced by_range 1 "XXXXX XXXXX XXXXX" "Hello XXXXX XXXXX" "Hello cruel XXXXX" "Hello cruel World" 5 ;;;
  replaced by_range 2 "XXXXXXX XXXXXXX XXXXXXX" "Hello XXXXXXX XXXXXXX" "Hello cruel XXXXXXX" "Hello cruel World" 7 ;;;
  finish [2; 1; 0].
Definition test_replace_fill : M world unit :=
  let X := ch "X" in
  str_new_range 6 (vals "A A A") ;;;
  str_replace_fill 6 0 1 3 X ;;; is 6 "XXX A A" ;;; str_replace_fill 6 4 5 3 X ;;; is 6 "XXX XXX A" ;;;
  (n <- str_size 6 ;; str_replace_fill 6 8 n 3 X) ;;; is 6 "XXX XXX XXX" ;;;
  str_new_range 7 (vals "AAA AAA AAA") ;;;
  str_replace_fill 7 0 3 3 X ;;; is 7 "XXX AAA AAA" ;;; str_replace_fill 7 4 7 3 X ;;; is 7 "XXX XXX AAA" ;;;
  (n <- str_size 7 ;; str_replace_fill 7 8 n 3 X) ;;; is 7 "XXX XXX XXX" ;;;
  str_new_range 8 (vals "AAA AAA AAA") ;;;
  str_replace_fill 8 0 3 1 X ;;; is 8 "X AAA AAA" ;;; str_replace_fill 8 2 5 1 X ;;; is 8 "X X AAA" ;;;
  (n <- str_size 8 ;; str_replace_fill 8 4 n 1 X) ;;; is 8 "X X X" ;;;
  finish [8; 7; 6].
Example string_replace :
  passes (all_replaced (λ x i j s, str_replace_input x i j (input s))) = true
  ∧ passes (all_replaced (λ x i j s, str_replace_range x i j (vals s))) = true
  ∧ passes test_replace_fill = true.
Proof. by vm_compute. Qed.

(** test/string.cpp:365-377 "string substr" *)
Definition test_substr : M world unit :=
  str_new_range 0 (vals "Hello World") ;;;
  let tail (i : nat) (s : string) :=
    str_substr_tail 1 0 i ;;; is 1 s ;;;
    str_literal 2 (txt "Hello World") ;;; str_substr_tail_move 3 2 i ;;; is 3 s ;;; finish [3; 2; 1] in
  let part (i n : nat) (s : string) :=
    str_substr 1 0 i n ;;; is 1 s ;;;
    str_literal 2 (txt "Hello World") ;;; str_substr_move 3 2 i n ;;; is 3 s ;;; finish [3; 2; 1] in
  tail 4 "o World"%string ;;; tail 6 "World"%string ;;; part 5 3 " Wo"%string ;;; part 4 2 "o "%string ;;;
  finish [0].
Example string_substr : passes test_substr = true. Proof. by vm_compute. Qed.
