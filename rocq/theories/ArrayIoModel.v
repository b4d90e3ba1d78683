(** Model of tf_quant_finance/experimental/io.py.  Definitions only.  The parts
    of TensorFlow it calls (protocol buffers, TFRecord files, conversion of
    Python values to numpy arrays) are the arguments of the section; [None] is
    an exception. *)
From Coq Require Import List Bool String.
Import ListNotations.

Section Io.
  (** numpy arrays, other Python values and byte strings *)
  Variables (array value bytes : Type).
  Variable np_array : value -> array.                               (* np.array *)
  Variable tensor_to_bytes : array -> bytes.                        (* make_tensor_proto(..).SerializeToString *)
  Variable tensor_of_bytes : bytes -> option array.                 (* make_ndarray(FromString(..)) *)
  (** tf.train.Example with features that are lists of byte strings *)
  Variable example_to_bytes : list (string * list bytes) -> bytes.
  Variable example_of_bytes : bytes -> option (list (string * list bytes)).

  (** A value of a dictionary: an array already, or not. *)
  Inductive entry := IsArray (a : array) | NotArray (v : value).
  (** Dictionaries in insertion order. *)
  Definition dict := list (string * entry).
  Definition array_encoder := array -> bytes.

  (** io.py 46-48 *)
  Definition encode_array (x : array) : bytes := tensor_to_bytes x.
  (** io.py 51-63 *)
  Definition decode_array (b : bytes) : option array := tensor_of_bytes b.

  (** io.py 180-191: [array_encoder] is set to its default and then not used. *)
  Definition make_feature (arr : entry) (encoder : option array_encoder) : list bytes :=
    let encoder := match encoder with None => encode_array | Some e => e end in
    let arr := match arr with IsArray a => a | NotArray v => np_array v end in
    [encode_array arr].
  (** io.py 194-201 *)
  Definition make_example (d : dict) (encoder : option array_encoder) : bytes :=
    example_to_bytes (map (fun '(key, value) => (key, make_feature value encoder)) d).

  (** A TFRecord file: its complete records, and whether a part of another
      record follows them. *)
  Record file := File { records : list bytes; torn : bool }.
  (** tf.io.TFRecordWriter: the records that reached the file, those still in
      the buffer, and whether the writer is open. *)
  Record writer := Writer { stored : list bytes; buffered : list bytes; is_open : bool }.
  (** io.py 109-110: opening a path for writing empties the file. *)
  Definition new_writer : writer := Writer [] [] true.
  (** io.py 120-127 *)
  Definition write (w : writer) (d : dict) : option writer :=
    if is_open w then Some (Writer (stored w) (buffered w ++ [make_example d None]) true) else None.
  (** io.py 129-131 *)
  Definition flush (w : writer) : option writer :=
    if is_open w then Some (Writer (stored w ++ buffered w) [] true) else None.
  (** io.py 133-135; closing again has no effect. *)
  Definition close (w : writer) : writer := Writer (stored w ++ buffered w) [] false.
  (** What a program does with a writer; io.py 112-118: leaving the [with]
      block closes it. *)
  Inductive command := CWrite (d : dict) | CFlush | CClose | CExit.
  Definition run_command (w : writer) (c : command) : option writer :=
    match c with
    | CWrite d => write w d
    | CFlush => flush w
    | CClose => Some (close w)
    | CExit => Some (close w)
    end.
  Fixpoint run (w : writer) (l : list command) : option writer :=
    match l with
    | [] => Some w
    | c :: l => match run_command w c with Some w => run w l | None => None end
    end.

  (** io.py 157-158: the records still to be read. *)
  Definition new_reader (f : file) : file := f.
  (** io.py 163-173: the next record, the end (StopIteration) or an error; the
      dictionary is built key by key, so that a later equal key wins. *)
  Inductive read_result := Item (d : list (string * array)) | StopIteration | ReadError.
  Fixpoint dict_set (d : list (string * array)) (k : string) (a : array) : list (string * array) :=
    match d with
    | [] => [(k, a)]
    | (k', a') :: d => if String.eqb k k' then (k, a) :: d else (k', a') :: dict_set d k a
    end.
  Fixpoint build_output (features : list (string * list bytes)) (output : list (string * array)) : option (list (string * array)) :=
    match features with
    | [] => Some output
    | (key, values) :: rest =>
        match values with
        | [] => None
        | b :: _ => match decode_array b with Some a => build_output rest (dict_set output key a) | None => None end
        end
    end.
  Definition next (f : file) : read_result * file :=
    match records f with
    | [] => (if torn f then ReadError else StopIteration, f)
    | raw :: rest =>
        (match example_of_bytes raw with
         | Some features => match build_output features [] with Some d => Item d | None => ReadError end
         | None => ReadError
         end, File rest (torn f))
    end.
  (** Calls of next until the first that gives no record; [n] limits them. *)
  Fixpoint read_all (n : nat) (f : file) : list (list (string * array)) * read_result :=
    match n with
    | O => ([], StopIteration)
    | S n =>
        match next f with
        | (Item d, f) => let (l, r) := read_all n f in (d :: l, r)
        | (r, _) => ([], r)
        end
    end.
End Io.
