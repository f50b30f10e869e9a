(* Byte-level model of the binary serialisation helpers:
   scisim/Utilities.{h,cpp}, scisim/StringUtilities.cpp, scisim/Math/MathUtilities.{h,cpp}.

   A stream is the list of bytes still to be read, a byte is an N below 256. Trivially copyable values are
   identified with their bit pattern (a scalar is the 64-bit pattern of the double), written little endian
   as on the supported platforms. std::istream::read past the end leaves the destination
   indeterminate and the release code goes on to use it: that is UB here. *)
From Coq Require Import ZArith NArith Ascii String List.
From Verif Require Import Outcome Str_Model.
Import ListNotations.
Open Scope N_scope.

Definition byte := N.
Definition bytes := list byte.
Definition parser (A : Type) := bytes -> outcome (A * bytes).

Definition pret {A} (a : A) : parser A := fun s => Ok (a, s).
Definition pbind {A B} (p : parser A) (f : A -> parser B) : parser B :=
  fun s => obind (p s) (fun x => f (fst x) (snd x)).
Definition pexit {A} : parser A := fun _ => Exit.
Definition pub {A} : parser A := fun _ => UB.
Definition pmap {A B} (f : A -> B) (p : parser A) : parser B := pbind p (fun a => pret (f a)).
Notation "x <-- p ;; q" := (pbind p (fun x => q))
  (at level 100, p at next level, right associativity).

(* one byte *)
Definition p_byte : parser byte := fun s => match s with [] => UB | b :: s' => Ok (b, s') end.

(* k little-endian bytes of n *)
Fixpoint enc_le (k : nat) (n : N) : bytes :=
  match k with
  | O => []
  | S k' => (n mod 256) :: enc_le k' (n / 256)
  end.
Fixpoint p_le (k : nat) : parser N :=
  match k with
  | O => pret 0
  | S k' => b <-- p_byte ;; r <-- p_le k' ;; pret (b + 256 * r)
  end.

(* Utilities.h:42-50 serialize of a trivially copyable variable and 100-111 deserialize, per size *)
Definition enc_u8 := enc_le 1.   Definition p_u8 := p_le 1.
Definition enc_u32 := enc_le 4.  Definition p_u32 := p_le 4.    (* unsigned, int, enum class *)
Definition enc_u64 := enc_le 8.  Definition p_u64 := p_le 8.    (* size_t, Eigen::Index, intmax_t, double *)

(* bool: one byte, 0 or 1; reading any other byte into a bool is undefined *)
Definition enc_bool (b : bool) : bytes := enc_u8 (if b then 1 else 0).
Definition p_bool : parser bool :=
  n <-- p_u8 ;; (if n =? 0 then pret false else if n =? 1 then pret true else pub).

(* n elements in a row *)
Fixpoint p_rep {A} (n : nat) (p : parser A) : parser (list A) :=
  match n with
  | O => pret []
  | S n' => x <-- p ;; xs <-- p_rep n' p ;; pret (x :: xs)
  end.
Definition enc_list {A} (e : A -> bytes) (l : list A) : bytes := concat (map e l).

(* Utilities.h:52-94: vectors (trivially copyable elements or elements with a serialize method),
   and Utilities.cpp:7-18 vector<bool>: a size_t followed by the elements.
   Deserialisation: Utilities.h:113-143, Utilities.cpp:20-32. *)
Definition enc_vec {A} (e : A -> bytes) (l : list A) : bytes :=
  enc_u64 (N.of_nat (List.length l)) ++ enc_list e l.
Definition p_vec {A} (p : parser A) : parser (list A) :=
  n <-- p_u64 ;; p_rep (N.to_nat n) p.

(* StringUtilities.cpp:40-46 serialize, 13-21 deserialize; 49-59 serializeVector, 24-37 deserializeVector.
   A std::string is here its list of char bytes. *)
Definition bstring := list byte.
Definition enc_string (s : bstring) : bytes := enc_vec (fun b => [b]) s.
Definition p_string : parser bstring := p_vec p_byte.
Definition enc_strings (l : list bstring) : bytes := enc_vec enc_string l.
Definition p_strings : parser (list bstring) := p_vec p_string.
(* a string literal of the source *)
Definition name_of (s : String.string) : bstring := map N_of_ascii (list_ascii_of_string s).
Definition bstring_eqb (a b : bstring) : bool := if list_eq_dec N.eq_dec a b then true else false.

(* Eigen dense objects. A fixed-size one (Vector2s, Vector3s, Matrix3s, Array3i, Vector3u) is the list of
   its coefficients in storage order; the caller knows how many there are.
   MathUtilities.h:41-60 serialize with both sizes fixed, 62-74 deserialize. *)
Definition scalar := N.
Definition enc_fix (l : list scalar) : bytes := enc_list enc_u64 l.
Definition p_fix (k : nat) : parser (list scalar) := p_rep k p_u64.
Definition enc_fix32 (l : list N) : bytes := enc_list enc_u32 l.
Definition p_fix32 (k : nat) : parser (list N) := p_rep k p_u32.

(* VectorXs: dynamic rows, one column. MathUtilities.h:41-60 and 95-112: an Index then the data *)
Definition enc_vecx (l : list scalar) : bytes := enc_vec enc_u64 l.
Definition p_vecx : parser (list scalar) := p_vec p_u64.
(* VectorXu (32-bit coefficients) *)
Definition enc_vecxu (l : list N) : bytes := enc_vec enc_u32 l.
Definition p_vecxu : parser (list N) := p_vec p_u32.

(* Matrix3Xsc / Matrix3Xuc: three fixed rows, dynamic columns. MathUtilities.h:41-60 and 76-93:
   the column count, then 3 * ncols coefficients. A matrix is its list of columns. *)
Definition enc_mat3x (m : list (list scalar)) : bytes := enc_vec enc_fix m.
Definition p_mat3x : parser (list (list scalar)) := p_vec (p_fix 3).
Definition enc_mat3xu (m : list (list N)) : bytes := enc_vec enc_fix32 m.
Definition p_mat3xu : parser (list (list N)) := p_vec (p_fix32 3).

(* Compressed column sparse matrix: innerIndexPtr, outerIndexPtr, valuePtr *)
Record sparse := mkSparse {
  sp_rows : N; sp_cols : N; sp_inner : list N; sp_outer : list N; sp_vals : list scalar }.
(* MathUtilities.cpp:142-154 *)
Definition enc_sparse (a : sparse) : bytes :=
  enc_u64 (sp_rows a) ++ enc_u64 (sp_cols a) ++ enc_u64 (N.of_nat (List.length (sp_vals a))) ++
  enc_list enc_u32 (sp_inner a) ++ enc_list enc_u32 (sp_outer a) ++ enc_list enc_u64 (sp_vals a).
(* MathUtilities.cpp:156-177 *)
Definition p_sparse : parser sparse :=
  rows <-- p_u64 ;; cols <-- p_u64 ;; nnz <-- p_u64 ;;
  inner <-- p_rep (N.to_nat nnz) p_u32 ;;
  outer <-- p_rep (N.to_nat (cols + 1)) p_u32 ;;
  vals <-- p_rep (N.to_nat nnz) p_u64 ;;
  pret (mkSparse rows cols inner outer vals).

(* std::map<std::pair<unsigned,unsigned>,VectorXs>: entries in increasing key order *)
Definition key := (N * N)%type.
Definition key_ltb (a b : key) : bool :=
  (fst a <? fst b) || ((fst a =? fst b) && (snd a <? snd b)).
Definition kmap (V : Type) := list (key * V).
(* std::map::insert: no effect when the key is present *)
Fixpoint kinsert {V} (k : key) (v : V) (m : kmap V) : kmap V :=
  match m with
  | [] => [(k, v)]
  | (k', v') :: m' =>
      if key_ltb k k' then (k, v) :: m
      else if key_ltb k' k then (k', v') :: kinsert k v m'
      else m
  end.
(* std::map::find *)
Fixpoint kfind {V} (k : key) (m : kmap V) : option V :=
  match m with
  | [] => None
  | (k', v') :: m' =>
      if key_ltb k k' then None
      else if key_ltb k' k then kfind k m'
      else Some v'
  end.

(* serializeCache: ball2d/ConstraintCache.cpp:125-136, rigidbody2d/ConstraintCache.cpp:140-151,
   rigidbody3d/ConstraintCache.cpp:170-181 *)
Definition enc_entry (e : key * list scalar) : bytes :=
  enc_u32 (fst (fst e)) ++ enc_u32 (snd (fst e)) ++ enc_vecx (snd e).
Definition p_entry : parser (key * list scalar) :=
  i <-- p_u32 ;; j <-- p_u32 ;; f <-- p_vecx ;; pret ((i, j), f).
Definition enc_cache (m : kmap (list scalar)) : bytes := enc_vec enc_entry m.
(* deserializeCache: 138-154, 153-169, 192-207: insert the entries one by one into a cleared map.
   The loop counter is a 32-bit unsigned: with 2^32 or more entries it wraps and the loop runs off the
   end of the stream. *)
Definition p_cache : parser (kmap (list scalar)) :=
  n <-- p_u64 ;;
  (if n <? 2 ^ 32
   then es <-- p_rep (N.to_nat n) p_entry ;;
        pret (fold_left (fun m e => kinsert (fst e) (snd e) m) es [])
   else pub).
