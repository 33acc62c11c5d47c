(** * The command line: executing, storing, loading and verifying (tool/klint/__main__.py, tool/klint/verif/persistence.py)

    A world is the file with the program and the file with the stored results.  Between runs the
    program can be edited; a run can be killed at any point. *)

From Coq Require Import List Bool Lia Arith.
Import ListNotations.

Section Cli.
Variables binary data spec byte : Type.
Inductive command := Libnf | Fullstack.
(** Symbolic execution ([execute_libnf], [execute_nf]): an exception, or the data of the final states. *)
Variable execute : command -> binary -> option data.
(** [verif_executor.verify]: whether it returns without exception. *)
Variable verify : data -> spec -> bool.
(** persistence.py 43-53: pickle, to bytes and back; an exception is [None]. *)
Variable pickle : data -> list byte.
Variable unpickle : list byte -> option data.

Record world := mkWorld { program : binary; cache : option (list byte) }.

(** __main__.py 60-77. *)
Record arguments := mkArgs { what : command; use_cached_symbex : bool; the_spec : option spec }.

(** What a run prints and how it ends: 0 with a verification, 0 without, or an exception. *)
Inductive ending := Verified | NotVerifying | Raised | Killed.

(** A run can be killed before it writes, after writing some bytes, or not at all. *)
Inductive kill := KillBefore | KillWriting (written : nat) | KillAfter | NoKill.

(** __main__.py 34-44. *)
Definition verif (w : world) (s : option spec) : ending :=
  match s with
  | None => NotVerifying
  | Some s =>
      match cache w with
      | None => Raised (* no file to open *)
      | Some bytes => match unpickle bytes with Some d => if verify d s then Verified else Raised | None => Raised end
      end
  end.

(** persistence.py 43-48: opening with "wb" empties the file. *)
Definition dump_data (w : world) (d : data) (k : kill) : world * bool (* finished *) :=
  match k with
  | KillWriting n => (mkWorld (program w) (Some (firstn n (pickle d))), false)
  | _ => (mkWorld (program w) (Some (pickle d)), true)
  end.

(** __main__.py 46-58: [handle_libnf] and [handle_fullstack], which differ in what they execute. *)
Definition handle (w : world) (a : arguments) (k : kill) : world * ending :=
  match k with
  | KillBefore => (w, Killed)
  | _ =>
      if negb (use_cached_symbex a) || (match cache w with None => true | Some _ => false end) then
        match execute (what a) (program w) with
        | None => (w, Raised)
        | Some d =>
            let '(w, finished) := dump_data w d k in
            if negb finished then (w, Killed) else match k with KillAfter => (w, Killed) | _ => (w, verif w (the_spec a)) end
        end
      else match k with NoKill => (w, verif w (the_spec a)) | _ => (w, Killed) end
  end.

(** What happens over time. *)
Inductive event := Edit (b : binary) | Run (a : arguments) (k : kill).
Definition happen (w : world) (e : event) : world := match e with Edit b => mkWorld b (cache w) | Run a k => fst (handle w a k) end.
Definition history (w : world) (es : list event) : world := fold_left happen es w.
End Cli.
Arguments mkWorld {binary byte}.
Arguments program {binary byte}.
Arguments cache {binary byte}.
Arguments mkArgs {spec}.
Arguments what {spec}.
Arguments use_cached_symbex {spec}.
Arguments the_spec {spec}.
Arguments Edit {binary spec}.
Arguments Run {binary spec}.
Arguments handle {binary data spec byte}.
Arguments history {binary data spec byte}.
Arguments happen {binary data spec byte}.
Arguments verif {binary data spec byte}.
Arguments dump_data {binary data byte}.
