(** Model of profile_fitting/read_profile.cpp: reading a table of data for profilefit. Definitions only. *)
From Coq Require Import ZArith List Ascii.
From Verif Require Import Base StrUtil_Model.
Import ListNotations.

(** MAXLINE - 1 less the terminating null: fgets(buf, MAXLINE - 1, ...) stores at most this many characters
    (read_profile.cpp:45, 65, 117) *)
Definition MAXCHARS : nat := 1022.
Definition newline : ascii := ascii_of_nat 10.
Definition hash : ascii := ascii_of_nat 35.

(** The strings that successive calls of fgets store, until the end of the file. [room] is the number of characters that
    still fit, [cur] what has been stored so far. The file contains no null characters. *)
Fixpoint fgets_all (room : nat) (cur file : str) : list str :=
  match file with
  | [] => match cur with [] => [] | _ => [cur] end
  | c :: r =>
      let cur := cur ++ [c] in
      if (Ascii.eqb c newline || Nat.leb room 1)%bool then cur :: fgets_all MAXCHARS [] r
      else fgets_all (room - 1) cur r
  end.

Definition is_data (s : str) : bool := match s with c :: _ => negb (Ascii.eqb c hash) | [] => true end.

(** CountDataLines, read_profile.cpp:52-74. Opening the file is not modelled. *)
Definition CountDataLines (file : str) : Z := Z.of_nat (length (filter is_data (fgets_all MAXCHARS [] file))).

Section Read.
Variable T : Type.
Variable strtod : str -> T.

(** what is stored for one row of data: x, y, and the error and mask if they are asked for *)
Definition row : Type := (T * T * option T * option T).

(** ReadDataFile, read_profile.cpp:78-164. The arrays have room for [size] values; writing behind their end is [Undef].
    [i] and [j] as in the code, the rows stored so far are [rows] (j + 1 of them). exit() is [Abort]. *)
Fixpoint read_loop (startDataRow endDataRow size : Z) (getErrors getMask : bool) (lines : list str) (i j : Z) (rows : list row)
  : res (Z * list row) :=
  match lines with
  | [] => Ok ((j + 1)%Z, rows)
  | currentLine :: rest =>
      if is_data currentLine then
        let i := (i + 1)%Z in
        if ((startDataRow <=? i) && (i <=? endDataRow))%Z%bool then
          let j := (j + 1)%Z in
          do stringPieces <- SplitString currentLine ws_delims;
          let nPieces := length stringPieces in
          if Nat.leb nPieces 1 then Abort
          else if (getErrors && Nat.ltb nPieces 3)%bool then Abort
          else if (getMask && Nat.ltb nPieces 4)%bool then Abort
          else
            do x <- get stringPieces 0; do y <- get stringPieces 1;
            do e <- (if getErrors then do e <- get stringPieces 2; Ok (Some (strtod e)) else Ok None);
            do m <- (if getMask then do m <- get stringPieces 3; Ok (Some (strtod m)) else Ok None);
            if (j <? size)%Z then
              read_loop startDataRow endDataRow size getErrors getMask rest i j (rows ++ [(strtod x, strtod y, e, m)])
            else Undef
        else read_loop startDataRow endDataRow size getErrors getMask rest i j rows
      else read_loop startDataRow endDataRow size getErrors getMask rest i j rows
  end.
Definition ReadDataFile (file : str) (startDataRow endDataRow size : Z) (getErrors getMask : bool) : res (Z * list row) :=
  read_loop startDataRow endDataRow size getErrors getMask (fgets_all MAXCHARS [] file) (-1) (-1) [].

(** GET THE DATA, profilefit_main.cpp:219-268: the two checks of the range of rows, the arrays, the reading.
    [endRow] is -1 if it was not given. Failing to allocate memory is not modelled. *)
Definition MAX_N_DATA_VALS : Z := 1000000.
Definition get_data (file : str) (startRow endRow : Z) (getErrors getMask : bool) : res (Z * list row) :=
  let nDataVals := CountDataLines file in
  if ((nDataVals <? 1) || (MAX_N_DATA_VALS <? nDataVals))%Z%bool then Abort
  else
    let endRow := if (endRow =? -1)%Z then (nDataVals - 1)%Z else endRow in
    if ((startRow <? 0) || (nDataVals <=? startRow))%Z%bool then Abort
    else if ((endRow <=? startRow) || (nDataVals <=? endRow))%Z%bool then Abort
    else ReadDataFile file startRow endRow (endRow - startRow + 1)%Z getErrors getMask.

(** options --x1 and --x2, profilefit_main.cpp:173-174, 632-649: the numbers are stored as they are given (both have to be
    whole numbers without sign, which is not modelled here) *)
Definition profilefit_data (file : str) (x1 x2 : option Z) (getErrors getMask : bool) : res (Z * list row) :=
  let startDataRow := match x1 with Some x => x | None => 0%Z end in
  let endDataRow := match x2 with Some x => x | None => (-1)%Z end in
  get_data file startDataRow endDataRow getErrors getMask.
End Read.
Arguments read_loop {T}. Arguments ReadDataFile {T}. Arguments get_data {T}. Arguments profilefit_data {T}. Arguments row T : clear implicits.
