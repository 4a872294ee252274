(** * Programs that write files at the same time

    src/main.rs:141, 149 and src/optimize.rs:291, [std::fs::write]: [File::create] truncates the file, [write_all]
    then calls [write] until everything is written; each call continues where the previous one of the same handle
    ended, whatever other programs have done to the file in between.  Several programs do this at the same time.
    Simplifications: a call of [write] is not interrupted by another one; a call that writes beyond the
    end of the file fills the gap with zeros (POSIX); files are not removed meanwhile; errors are not modelled (a
    program that fails just stops, and any program may stop at any moment). *)
From Coq Require Import String.
From Verif Require Import Base TokenSetModel CommandsModel.
Local Open Scope list_scope.
Local Notation length := List.length.

(** One [write] of the bytes [piece] at offset [off] into a file with content [c]. *)
Definition overlay (c : bstr) (off : nat) (piece : bstr) : bstr :=
  firstn off (c ++ repeat x00 (off - length c)) ++ piece ++ skipn (off + length piece) c.

(** A program: the file it has open, with the offset and what is left to write, and the
    files it will write afterwards. *)
Record writer := mkWriter { w_open : option (string * nat * bstr); w_todo : list (string * bstr) }.

Definition content (d : dir) (name : string) : bstr := match d name with Some c => c | None => [] end.

(** One action of one program.  [split]: whether a call of [write] may write less
    than it is given. *)
Inductive acts (split : Prop) (d : dir) : writer -> dir -> writer -> Prop :=
| act_create name text todo :
    acts split d (mkWriter None ((name, text) :: todo)) (put_file d name []) (mkWriter (Some (name, 0, text)) todo)
| act_write name off k rest todo : 1 <= k <= length rest -> (k = length rest \/ split) ->
    acts split d (mkWriter (Some (name, off, rest)) todo)
      (put_file d name (overlay (content d name) off (firstn k rest))) (mkWriter (Some (name, off + k, skipn k rest)) todo)
| act_close name off todo : acts split d (mkWriter (Some (name, off, [])) todo) d (mkWriter None todo).

(** All of them together: any program may act next. *)
Inductive together (split : Prop) (d : dir) (ws : list writer) : dir -> list writer -> Prop :=
| tg_refl : together split d ws d ws
| tg_step d1 before w w' after d2 : together split d ws d1 (before ++ w :: after) -> acts split d1 w d2 w' ->
    together split d ws d2 (before ++ w' :: after).

(** A program that has the given files to write. *)
Definition starting (texts : list (string * bstr)) : writer := mkWriter None texts.
Definition finished (w : writer) : Prop := w = mkWriter None [].
