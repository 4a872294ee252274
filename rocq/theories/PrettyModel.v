(** * Model of pretty.py: the script that lays out token set files. *)
From Coq Require Import String ZArith.
From Verif Require Import Base Utf8 TokenSetModel JsonModel JsonText ProcessingModel.
Local Open Scope list_scope.
Local Notation length := List.length.

(** Python's [json.dumps(data, indent=None, ensure_ascii=False)] (called in pretty.py:5, 29 and
    30): the separators are [", "] and [": "], the escapes are those of serde_json. *)
Fixpoint dumps (v : json) : bstr :=
  match v with
  | JArr l =>
      lit "[" ++
      (fix go (first : bool) (l : list json) : bstr :=
         match l with
         | [] => []
         | x :: r => (if first then [] else lit ", ") ++ dumps x ++ go false r
         end) true l
      ++ lit "]"
  | JObj fs =>
      lit "{" ++
      (fix go (first : bool) (l : list (bstr * json)) : bstr :=
         match l with
         | [] => []
         | (k, x) :: r => (if first then [] else lit ", ") ++ show_str k ++ lit ": " ++ dumps x ++ go false r
         end) true fs
      ++ lit "}"
  | v => show v
  end.

(** [len] of a Python string: the number of its characters *)
Definition len (s : bstr) : Z := Z.of_nat (length (chars s)).

(** [type(data) not in (list, dict)], pretty.py:6 *)
Definition scalar (v : json) : bool := match v with JArr _ | JObj _ => false | _ => true end.

(** The state of the generator: the lines yielded so far and [last_line]. *)
Definition gen := (list bstr * option bstr)%type.
Definition yield (g : gen) (l : bstr) : gen := (fst g ++ [l], snd g).
(** pretty.py:13-15 and 25-27: [yield last_line + ','] unless it is [None], then [None] *)
Definition comma (g : gen) : gen :=
  match snd g with Some l => (fst g ++ [l ++ lit ","], None) | None => g end.
(** pretty.py:16-19: the lines of an item *)
Definition item_lines (g : gen) (subs : list bstr) : gen :=
  fold_left (fun g s => match snd g with
                        | Some l => (fst g ++ [l], Some (lit "  " ++ s))
                        | None => (fst g, Some (lit "  " ++ s))
                        end) subs g.
(** pretty.py:36-41: the lines of a value that does not fit *)
Definition field_lines (g : gen) (key : bstr) (subs : list bstr) : gen :=
  fold_left (fun g s => match snd g with
                        | None => (fst g, Some (lit "  " ++ key ++ lit ": " ++ s))
                        | Some l => (fst g ++ [l], Some (lit "  " ++ s))
                        end) subs g.
(** pretty.py:20-22 and 42-44 *)
Definition finish (g : gen) (close : bstr) : list bstr :=
  match snd g with Some l => fst g ++ [l; close] | None => fst g ++ [close] end.

(** pretty.py:4-44 [serialize] *)
Fixpoint serialize (v : json) (maxlen : Z) : list bstr :=
  let try_short := dumps v in
  if (len try_short <=? maxlen)%Z || scalar v then [try_short]
  else match v with
       | JArr l =>
           finish ((fix go (g : gen) (l : list json) : gen :=
                      match l with
                      | [] => g
                      | x :: r => go (item_lines (comma g) (serialize x (maxlen - 2))) r
                      end) ([lit "["], None) l) (lit "]")
       | JObj fs =>
           finish ((fix go (g : gen) (l : list (bstr * json)) : gen :=
                      match l with
                      | [] => g
                      | (k, x) :: r =>
                          let g := comma g in
                          let key_repr := show_str k in
                          let short_line := lit "  " ++ key_repr ++ lit ": " ++ dumps x in
                          go (if (len short_line <=? maxlen + 1)%Z then (fst g, Some short_line)
                              else field_lines g key_repr (serialize x (maxlen - 2))) r
                      end) ([lit "{"], None) fs) (lit "}")
       | _ => []
       end.

(** pretty.py:47-49 [save_json]; the default of [maxlen] is 80 *)
Definition save_json (v : json) : bstr := flat_map (fun l => l ++ [x0a]) (serialize v 80).

(** Texts that Python reads as integers, exactly: no point and no exponent. *)
Definition integer_text (t : bstr) : bool :=
  negb (existsb (fun b => Byte.eqb b x2e || Byte.eqb b x65 || Byte.eqb b x45) t).

Section Load.
(** What Python writes for a number with a point or an exponent, by the text it was read from:
    [repr(float(text))].  Not modelled. *)
Variable renumber : bstr -> bstr.

(** [json.dumps(json.loads(t))] of a number that serde_json does not read as a [u64]: integers
    are kept, except that [-0] becomes [0] *)
Definition renumbered (t : bstr) : json :=
  if bstr_eqb t (lit "-0") then JNum 0 else if integer_text t then JReal t else JReal (renumber t).

Fixpoint reals (v : json) : json :=
  match v with
  | JReal t => renumbered t
  | JArr l => JArr (map reals l)
  | JObj fs => JObj (map (fun kv => (fst kv, reals (snd kv))) fs)
  | v => v
  end.

(** pretty.py:52-56: [json.load], then [save_json] into the same file.  [json.load] is taken
    to agree with serde_json: it also accepts some other texts (NaN, unpaired surrogates, larger
    depth), and since 3.11 rejects integers of more than 4300 digits, and keeps the order of the keys, which is the sorted one in files of the program. *)
Definition pretty (text : bstr) : option bstr :=
  match parse_json text with Some v => Some (save_json (reals v)) | None => None end.
End Load.
