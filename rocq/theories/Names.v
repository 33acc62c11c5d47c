(** * Names of symbols (tool/klint/verif/executor.py 58-59, claripy's naming) *)

From Coq Require Import NArith List Bool Lia Ascii String Arith.
From Coq Require Import DecimalString Decimal DecimalNat DecimalN DecimalFacts.
Import ListNotations.
Open Scope N_scope.
Open Scope string_scope.

(** claripy, ast/base.py, [_make_name]: unless the name is explicit, a counter and the size are appended. *)
Definition decimal (n : N) : string := NilZero.string_of_uint (N.to_uint n).
Definition make_name (name : string) (counter size : N) : string := name ++ "_" ++ decimal counter ++ "_" ++ decimal size.

(** A process that creates symbols: an explicit name, or a name and a size. *)
Inductive request := Explicit (name : string) | Fresh (name : string) (size : N).
Definition create (counter : N) (r : request) : string * N :=
  match r with Explicit name => (name, counter) | Fresh name size => (make_name name counter size, counter + 1) end.
Fixpoint create_all (counter : N) (rs : list request) : list string * N :=
  match rs with
  | [] => ([], counter)
  | r :: rs => let '(n, counter) := create counter r in let '(ns, counter) := create_all counter rs in (n :: ns, counter)
  end.
(** A process starts with the counter at 0; executor.py 59: verification sets it to 1000000. *)
Definition START : N := 0.
Definition VERIF_START : N := 1000000.
Definition symbex_names (rs : list request) : list string := fst (create_all START rs).
Definition verif_names (rs : list request) : list string := fst (create_all VERIF_START rs).
(** ghostmaps.py 97-99, 725, 735, 746, 799-800: the explicit names; memory.py 46: an existing name. *)
Definition explicit_names : list string := ["KEY"; "VALUE"; "PRESENT"; "FAKE"; "K"; "V"].
