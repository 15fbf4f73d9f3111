(** What a saved parameter file has to contain, stated without reference to the code
    that writes it. *)
From Coq Require Import Ascii String List ZArith Reals.
From Verif Require Import StrUtil_Spec Num Config_Spec Params_Spec.
From Verif Require Import Config_Model Build_Model. (* only [smap], [map_get], [in_order], [classes] and records *)
Import ListNotations.
Local Open Scope list_scope.

(** ---- decimal numerals (ISO C, the form printf writes and strtod reads) ---- *)
Definition ch (n : nat) : ascii := ascii_of_nat n.
Inductive SignText : text -> bool -> Prop :=
| Sg_none : SignText [] false
| Sg_plus : SignText [ch 43] false
| Sg_minus : SignText [ch 45] true.
Inductive FracText : text -> text -> Prop :=          (* the digits after the point *)
| Fr_none : FracText [] []
| Fr_some d v : Digits d v -> FracText (ch 46 :: d) d.
Inductive ExpoText : text -> Z -> Prop :=
| Ex_none : ExpoText [] 0
| Ex_some s neg d v : SignText s neg -> Digits d v ->
    ExpoText (ch 101 :: s ++ d) (if neg then - v else v).

Definition Decimal (s : text) (r : R) : Prop :=
  exists sg neg ip vi fr fd ex e v,
    s = sg ++ ip ++ fr ++ ex /\ SignText sg neg /\ Digits ip vi /\ FracText fr fd /\ ExpoText ex e /\
    Digits (ip ++ fd) v /\
    r = ((if neg then -1 else 1) * IZR v * powerRZ 10 (e - Z.of_nat (length fd)))%R.

(** ---- printf and strtod ---- *)
(** characters that do not disturb a comment: no newline, no NUL, no capital letter *)
Definition Harmless (c : ascii) : Prop :=
  let n := nat_of_ascii c in n <> 0 /\ n <> 10 /\ ~ (65 <= n <= 90).

Section Contract.
  Variable T : Type.
  Variable toR : T -> R.                   (* the value of a number *)
  Variable finite : T -> Prop.             (* it is not an infinity or NaN *)
  Variable f4 g g5 : T -> text.            (* "%.4f", "%g", "%.5g" *)
  Variable strtod : text -> T.
  Variable IsNumeric : text -> bool.

  (** "%.4f" is correct to half a unit in the fourth decimal, "%g" to half a unit in
      the sixth significant digit; no text is longer than 400 characters *)
  Record PrintfOK : Prop := mkPrintfOK {
    f4_value : forall v, finite v -> exists r, Decimal (f4 v) r /\ (Rabs (r - toR v) <= 5 / 100000)%R;
    g_value : forall v, finite v -> exists r, Decimal (g v) r /\ (Rabs (r - toR v) <= 5 / 1000000 * Rabs (toR v))%R;
    f4_text : forall v, Forall Harmless (f4 v) /\ length (f4 v) <= 400;
    g_text : forall v, length (g v) <= 400;
    g5_text : forall v, Forall Harmless (g5 v) /\ length (g5 v) <= 400 }.

  (** decimal numerals are accepted as numbers *)
  Definition AcceptsDecimals : Prop := forall s r, Decimal s r -> IsNumeric s = true.
End Contract.
Arguments PrintfOK {T}.

(** ---- models with their parameters ---- *)
Record sfunc (T : Type) := mkSfunc { s_name : text; s_label : text; s_opts : smap; s_vals : list T }.
Record sblock (T : Type) := mkSblock { s_x : T; s_y : T; s_funcs : list (sfunc T) }.
Arguments mkSfunc {T}. Arguments s_name {T}. Arguments s_label {T}. Arguments s_opts {T}. Arguments s_vals {T}.
Arguments mkSblock {T}. Arguments s_x {T}. Arguments s_y {T}. Arguments s_funcs {T}.

Section M.
  Variable T : Type.
  Implicit Type bs : list (sblock T).
  Definition sall bs : list (sfunc T) := flat_map s_funcs bs.
  Definition as_blk (b : sblock T) : blk T := mkBlk (s_x b) (s_y b) (map s_vals (s_funcs b)).
  (** parameter vector and indices of the first functions of the blocks *)
  Definition sflat bs : list T := flat (map as_blk bs).
  Definition sstarts bs : list nat := starts 0 (map as_blk bs).

  (** the values a saved file shows: centres in coordinates of the full image;
      [true] marks a centre *)
  Definition shown (add : T -> T -> T) (offX offY : T) bs : list (T * bool) :=
    flat_map (fun b => (add (s_x b) offX, true) :: (add (s_y b) offY, true) ::
                       map (fun v => (v, false)) (flat_map s_vals (s_funcs b))) bs.
  (** the names of the parameters, in order *)
  Definition param_names bs : list text :=
    flat_map (fun b => list_ascii_of_string "X0" :: list_ascii_of_string "Y0" ::
       flat_map (fun f => flat_map (fun c => if list_eq_dec ascii_dec (s_name f) (c_name c) then c_params c else [])
                            classes) (s_funcs b)) bs.

  (** ---- what is required of a model that is to be saved ---- *)
  (** the function is one of the known ones and has the right number of parameters *)
  Definition Sized (f : sfunc T) : Prop :=
    exists c, In c classes /\ c_name c = s_name f /\ length (s_vals f) = length (c_params c).
  (** a label: none, or at least two characters on one line, not starting or ending
      with a blank, of moderate length and without the text "X0" *)
  Definition GoodLabel (l : text) : Prop :=
    l = [] \/
    (Trimmed Blank l l /\ 2 <= length l <= 900 /\
     Forall (fun c => c <> ch 0 /\ c <> ch 10) l /\ ~ Kw "X0" l).
  (** a word of an optional-parameter line *)
  Definition GoodWord (w : text) : Prop :=
    w <> [] /\ length w <= 400 /\ Forall (fun c => ~ Blank c /\ c <> ch 0 /\ c <> ch 35) w /\
    PosLine w /\ ~ Kw "X0" w.
  Definition GoodOpts (m : smap) : Prop :=
    NoDup (map fst m) /\ Forall (fun kv => GoodWord (fst kv) /\ GoodWord (snd kv)) m.
  Definition GoodModel bs : Prop :=
    bs <> [] /\ Forall (fun b => s_funcs b <> []) bs /\
    Forall (fun f => Sized f /\ GoodLabel (s_label f) /\ GoodOpts (s_opts f)) (sall bs).

  (** the optional parameters a function object remembers: only PointSource does *)
  Definition kept (f : sfunc T) : smap :=
    match in_order (s_opts f) with
    | (k, _) :: _ =>
        if list_eq_dec ascii_dec (s_name f) (list_ascii_of_string "PointSource")
        then if list_eq_dec ascii_dec k (list_ascii_of_string "method") then s_opts f else []
        else []
    | [] => []
    end.
End M.
Arguments sall {T}. Arguments sflat {T}. Arguments sstarts {T}. Arguments shown {T}. Arguments param_names {T}.
Arguments Sized {T}. Arguments GoodModel {T}. Arguments kept {T}. Arguments as_blk {T}.

(** a line of the header: a comment on one line *)
Definition Comment (h : text) : Prop :=
  exists r, h = ch 35 :: r /\ Forall (fun c => c <> ch 0 /\ c <> ch 10) r.
Definition OneLine (h : text) : Prop := Forall (fun c => c <> ch 0 /\ c <> ch 10) h.

(** ---- what reading the file has to give ---- *)
Section R.
  Variable T : Type.
  Variable toR : T -> R.
  Variable finite : T -> Prop.
  Variable add : T -> T -> T.
  Variable zero : T.
  Variable strtod : text -> T.
  Variable offX offY : T.

  Definition AllFinite (bs : list (sblock T)) : Prop :=
    Forall (fun p => finite (fst p)) (shown add offX offY bs).

  (** [x] is what strtod makes of a decimal numeral that is [v] to four decimals (a
      centre) or to six significant digits (any other parameter) *)
  Definition Rounded (x : T) (v : T * bool) : Prop :=
    exists s r, x = strtod s /\ Decimal s r /\
      if snd v then (Rabs (r - toR (fst v)) <= 5 / 100000)%R
      else (Rabs (r - toR (fst v)) <= 5 / 1000000 * Rabs (toR (fst v)))%R.

  Definition ReadBack (bs : list (sblock T)) (out : pout T) : Prop :=
    o_names out = map s_name (sall bs) /\
    o_labels out = map s_label (sall bs) /\
    o_starts out = sstarts bs /\
    Forall2 Rounded (o_params out) (shown add offX offY bs) /\
    Forall2 (fun m f => NoDup (map fst m) /\ forall k, map_get m k = map_get (kept f) k) (o_opt out) (sall bs) /\
    o_limFound out = false /\
    o_limits out = repeat (mkPar false false false zero zero) (length (sflat bs)).
End R.
Arguments AllFinite {T}. Arguments Rounded {T}. Arguments ReadBack {T}.

(** there is an error for every parameter, if there are errors *)
Definition ErrorsFor {T} (errs : option (list T)) (bs : list (sblock T)) : Prop :=
  match errs with None => True | Some es => length es = length (sflat bs) end.

(** the same model, as far as images are concerned *)
Definition SameModel (m m' : built) : Prop :=
  b_flags m' = b_flags m /\ b_labels m' = b_labels m /\ b_nParamsTot m' = b_nParamsTot m /\
  Forall2 (fun o o' => fo_class o' = fo_class o /\ fo_label o' = fo_label o /\ fo_method o' = fo_method o /\ fo_interp o' = fo_interp o)
    (Build_Model.b_funcs m) (Build_Model.b_funcs m').
