(** Model of the text utilities of core/utilities.cpp. Definitions only.

    A [std::string] is a list of 8-bit characters. [std::string::npos] is
    [None]. *)

From Coq Require Export Ascii String.
From Verif Require Export Base.
Local Open Scope list_scope.

Notation str := (list ascii).

(** string literals *)
Definition lit (s : string) : str := list_ascii_of_string s.

(** [x == y] on characters and on std::string *)
Definition ch_eqb (a b : ascii) : bool := Ascii.eqb a b.
Fixpoint str_eqb (a b : str) : bool :=
  match a, b with
  | [], [] => true
  | x :: a', y :: b' => ch_eqb x y && str_eqb a' b'
  | _, _ => false
  end.

(** membership of a character in a delimiter string *)
Definition is_in (d : str) (c : ascii) : bool := existsb (ch_eqb c) d.

(** index of the first character satisfying [p] *)
Fixpoint index_of (p : ascii -> bool) (s : str) : option nat :=
  match s with
  | [] => None
  | c :: t => if p c then Some 0 else option_map S (index_of p t)
  end.

(** search from a position; a position of [npos] or past the end finds nothing
    (std::string::find family, ISO C++ [string.find]) *)
Definition find_p (p : ascii -> bool) (s : str) (pos : option nat) : option nat :=
  match pos with
  | None => None
  | Some k => option_map (Nat.add k) (index_of p (skipn k s))
  end.

Definition find_first_of (s d : str) (pos : option nat) := find_p (is_in d) s pos.
Definition find_first_not_of (s d : str) (pos : option nat) := find_p (fun c => negb (is_in d c)) s pos.
Definition find_char (s : str) (c : ascii) (pos : option nat) := find_p (ch_eqb c) s pos.

(** index of the last character satisfying [p] (std::string::find_last_not_of) *)
Fixpoint last_index_of (p : ascii -> bool) (s : str) : option nat :=
  match s with
  | [] => None
  | c :: t => match last_index_of p t with
              | Some k => Some (S k)
              | None => if p c then Some 0 else None
              end
  end.
Definition find_last_not_of (s d : str) : option nat := last_index_of (fun c => negb (is_in d c)) s.

(** [s.substr(pos, n)]; a position past the end throws std::out_of_range *)
Definition substr (s : str) (pos : nat) (n : option nat) : res str :=
  if length s <? pos then Abort
  else Ok (match n with Some k => firstn k (skipn pos s) | None => skipn pos s end).

Definition is_npos (p : option nat) : bool := match p with None => true | Some _ => false end.

(** [pos - lastPos] as an unsigned count: [npos - k] is larger than any string *)
Definition count_to (pos : option nat) (lastPos : nat) : option nat :=
  match pos with Some p => Some (p - lastPos) | None => None end.

(** The token loop shared by SplitString (core/utilities.cpp:222-230) and
    SplitStringAdd (core/utilities.cpp:245-253). *)
Fixpoint token_loop (fuel : nat) (s d : str) (tokens : list str) (lastPos pos : option nat)
  : res (list str) :=
  if negb (is_npos pos) || negb (is_npos lastPos) then
    match fuel with
    | O => Fuel
    | S fuel' =>
        match lastPos with
        | None => Abort      (* substr(npos, ...) throws *)
        | Some lp =>
            do tok <- substr s lp (count_to pos lp);
            let lastPos' := find_first_not_of s d pos in
            let pos' := find_first_of s d lastPos' in
            token_loop fuel' s d (tokens ++ [tok]) lastPos' pos'
        end
    end
  else Ok tokens.

(** core/utilities.cpp:208-232 SplitString. The loop gets one unit of fuel per
    character plus one. *)
Definition SplitString (s d : str) : res (list str) :=
  let lastPos := find_first_not_of s d (Some 0) in
  let pos := find_first_of s d lastPos in
  match pos with
  | None => Ok [s]
  | Some _ => token_loop (S (length s)) s d [] lastPos pos
  end.

(** core/utilities.cpp:238-254 SplitStringAdd *)
Definition SplitStringAdd (s : str) (tokens : list str) (d : str) : res (list str) :=
  let lastPos := find_first_not_of s d (Some 0) in
  let pos := find_first_of s d lastPos in
  token_loop (S (length s)) s d tokens lastPos pos.

(** core/utilities_pub.h: default delimiters of SplitString, ["\n\t "] *)
Definition nl : ascii := ascii_of_nat 10.
Definition tab : ascii := ascii_of_nat 9.
Definition spc : ascii := ascii_of_nat 32.
Definition ws_delims : str := [nl; tab; spc].

(** core/utilities.cpp:260-266 ChopComment *)
Definition ChopComment (s : str) (delim : ascii) : res str :=
  substr s 0 (find_char s delim (Some 0)).
Definition hash : ascii := ascii_of_nat 35.

(** core/utilities.cpp:273-284 TrimWhitespace. [startIndex == endIndex] is true
    both for an all-blank string (npos == npos) and for a single non-blank
    character. *)
Definition TrimWhitespace (s : str) : res str :=
  match s with
  | [] => Ok []
  | _ =>
      match find_first_not_of s [spc; tab; nl] (Some 0), find_last_not_of s [spc; tab; nl] with
      | None, None => Ok []
      | Some a, Some b =>
          if a =? b then Ok [] else substr s a (Some (b - a + 1))
      | None, Some _ => Abort   (* substr(npos, ...) throws; cannot happen *)
      | Some a, None => substr s a None   (* npos - a + 1: everything; cannot happen *)
      end
  end.

(** core/utilities.cpp:290-294 StripBrackets. [inputFilename.c_str()] cuts the
    name at an embedded NUL character. *)
Definition lbr : ascii := ascii_of_nat 91.
Definition rbr : ascii := ascii_of_nat 93.
Definition c_str (s : str) : str :=
  match index_of (ch_eqb zero) s with Some k => firstn k s | None => s end.
Definition StripBrackets (s : str) : res str := ChopComment (c_str s) lbr.

(** C library [atoi] on the digits that are used here: optional blanks, an
    optional sign and decimal digits. A value that does not fit in [int] is
    undefined behaviour (ISO C 7.22.1). Blanks are those of [isspace]. *)
Definition digit_val (c : ascii) : option Z :=
  let n := nat_of_ascii c in
  if (48 <=? n) && (n <=? 57) then Some (Z.of_nat n - 48)%Z else None.
Definition is_digit (c : ascii) : bool := match digit_val c with Some _ => true | None => false end.
Definition is_space (c : ascii) : bool :=
  let n := nat_of_ascii c in (n =? 32) || ((9 <=? n) && (n <=? 13)).
Fixpoint read_digits (s : str) (acc : Z) : Z :=
  match s with
  | c :: t => match digit_val c with Some v => read_digits t (10 * acc + v)%Z | None => acc end
  | [] => acc
  end.
Fixpoint skip_spaces (s : str) : str :=
  match s with c :: t => if is_space c then skip_spaces t else s | [] => [] end.
Definition INT_MAX : Z := 2147483647.
Definition INT_MIN : Z := (-2147483648).
Definition fits_int (z : Z) : bool := (INT_MIN <=? z)%Z && (z <=? INT_MAX)%Z.
Definition atoi (s : str) : res Z :=
  let s1 := skip_spaces s in
  let v := match s1 with
           | c :: t => if ch_eqb c (ascii_of_nat 45) then (- read_digits t 0)%Z
                       else if ch_eqb c (ascii_of_nat 43) then read_digits t 0
                       else read_digits s1 0
           | [] => 0%Z
           end in
  if fits_int v then Ok v else Undef.

Definition comma : ascii := ascii_of_nat 44.
Definition colon : ascii := ascii_of_nat 58.
Definition star : str := [ascii_of_nat 42].

(** core/utilities.cpp:350-388 GetStartCoordsFromBracket (the warning printed
    on a bad section is left out) *)
Definition GetStartCoordsFromBracket (bracketString : str) : res (Z * Z) :=
  do pieces <- SplitString bracketString [comma];
  do p0 <- get pieces 0;
  do x1 <- (if str_eqb p0 star then Ok (Some 1%Z)
            else do xs <- SplitString p0 [colon];
                 if length xs =? 2 then (do a <- get xs 0; do v <- atoi a; Ok (Some v))
                 else Ok None);
  match x1 with
  | None => Ok (0, 0)%Z
  | Some x =>
      do p1 <- get pieces 1;
      do y1 <- (if str_eqb p1 star then Ok (Some 1%Z)
                else do ys <- SplitString p1 [colon];
                     if length ys =? 2 then (do a <- get ys 0; do v <- atoi a; Ok (Some v))
                     else Ok None);
      match y1 with
      | None => Ok (0, 0)%Z
      | Some y => Ok (x, y)
      end
  end.

(** core/utilities.cpp:393-473 GetPixelStartCoords. The local [loc4] is only
    read when [twoSections] is set, and then it is initialised. *)
Definition GetPixelStartCoords (name : str) : res (Z * Z) :=
  match find_char name lbr (Some 0) with
  | None => Ok (1, 1)%Z
  | Some loc1 =>
      match find_char name rbr (Some loc1) with
      | None => Ok (0, 0)%Z
      | Some loc2 =>
          let loc3 := find_char name lbr (Some loc2) in
          let loc4 := find_char name rbr loc3 in
          match loc3, loc4 with
          | Some _, None => Ok (0, 0)%Z
          | _, _ =>
              do sub <- substr name (loc1 + 1) (Some (loc2 - loc1 - 1));
              do pieces <- SplitString sub [comma];
              let n := length pieces in
              if n =? 2 then GetStartCoordsFromBracket sub
              else if negb (n =? 1) || (length sub <? 1) then Ok (0, 0)%Z
              else match loc3, loc4 with
                   | Some l3, Some l4 =>
                       do sub2 <- substr name (l3 + 1) (Some (l4 - l3 - 1));
                       do pieces2 <- SplitString sub2 [comma];
                       if negb (length pieces2 =? 2) then Ok (0, 0)%Z
                       else GetStartCoordsFromBracket sub2
                   | _, _ => Ok (1, 1)%Z
                   end
          end
      end
  end.

(** core/utilities.cpp:483-489 DetermineImageOffset *)
Definition DetermineImageOffset (name : str) : res (Z * Z) :=
  do c <- GetPixelStartCoords name;
  Ok (fst c - 1, snd c - 1)%Z.

(** core/utilities.cpp:300-344 GetAllCoordsFromBracket. Line 324 builds a tuple
    without returning it, so a piece without exactly one ':' goes on to index
    the (possibly too short) list of pieces. *)
Definition GetAllCoordsFromBracket (bracketString : str) : res (Z * Z * Z * Z) :=
  do copy <- (match find_first_not_of bracketString [lbr] (Some 0) with
              | None => Abort
              | Some a =>
                  match find_last_not_of bracketString [rbr] with
                  | Some b => if b <? a
                              then (* b - a + 1: 0 if b + 1 = a, else wraps around *)
                                   (if b + 1 =? a then Ok [] else substr bracketString a None)
                              else substr bracketString a (Some (b - a + 1))
                  | None => (* npos - a + 1 wraps to -a: 0 if a = 0, else huge *)
                      if a =? 0 then Ok [] else substr bracketString a None
                  end
              end);
  do pieces <- SplitString copy [comma];
  do p0 <- get pieces 0;
  do x <- (if str_eqb p0 star then Ok (1, 0)%Z
           else do xs <- SplitString p0 [colon];
                do a <- get xs 0; do x1 <- atoi a;
                do b <- get xs 1; do x2 <- atoi b; Ok (x1, x2));
  do p1 <- get pieces 1;
  if str_eqb p1 star then Ok (fst x, snd x, 1, 0)%Z
  else do ys <- SplitString p1 [colon];
       if length ys =? 2 then
         do a <- get ys 0; do y1 <- atoi a;
         do b <- get ys 1; do y2 <- atoi b; Ok (fst x, snd x, y1, y2)
       else Ok (0, 0, 0, 0)%Z.
