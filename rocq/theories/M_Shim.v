(** * Model of pelote/shim.py

    [pd] and [original_pandas] are the two module globals (lines 3-10): each is None
    ([false]) or the pandas module ([true]). *)
From Verif Require Import PyBase.

Record shim : Set := mkShim { pd : bool; original_pandas : bool }.

(** lines 3-10: the state after importing the module, with pandas installed or not *)
Definition import_shim (installed : bool) : shim := mkShim installed installed.

(** obliterate_pandas, lines 16-23 *)
Definition obliterate_pandas (s : shim) : shim := mkShim false (original_pandas s).

(** resurrect_pandas, lines 26-35 *)
Definition resurrect_pandas (s : shim) : shim :=
  if original_pandas s then mkShim true (original_pandas s) else s.

(** is_pandas_available, lines 48-52 *)
Definition is_pandas_available (s : shim) : bool := pd s.

(** check_pandas, lines 55-65 *)
Definition check_pandas (s : shim) : res unit :=
  if pd s then Ok tt else Err MissingPandasException.

(** is_dataframe, lines 68-74; [is_df] tells whether the value is a DataFrame *)
Definition is_dataframe (is_df : bool) (s : shim) : bool := if pd s then is_df else false.

(** missing_pandas, lines 38-45, around a block [body] of client code, which either
    finishes or raises; [finally] runs resurrect_pandas in both cases.  The whole state of
    the program is some [S] in which [on] acts on the shim's globals. *)
Definition missing_pandas {S A} (on : (shim -> shim) -> S -> S) (body : sm S A) : sm S A := fun s =>
  match body (on obliterate_pandas s) with
  | (s', Ok a) => (on resurrect_pandas s', Ok a)
  | (s', Err e) => (on resurrect_pandas s', Err e)
  end.

(** ** Client code

    Programs made of calls to check_pandas, of raised exceptions, of sequences, of
    [try: .. except Exception: pass], and of [with missing_pandas():] blocks.  Running a
    program also gives what each check saw, with the number of blocks around it. *)
Inductive client : Set :=
| Skip
| Check                       (* a table function needing pandas *)
| Raise (e : exc)
| Then (p q : client)
| Try (p : client)
| With (p : client).

Definition obs : Set := list (nat * res unit).

Fixpoint run_client (depth : nat) (p : client) : sm (shim * obs) unit :=
  match p with
  | Skip => sret tt
  | Check => fun '(s, l) => let r := check_pandas s in ((s, l ++ [(depth, r)]), r)
  | Raise e => sraise e
  | Then p q => let! _ := run_client depth p in run_client depth q
  | Try p => fun s => let (s', _) := run_client depth p s in (s', Ok tt)
  | With p => missing_pandas (fun f '(s, l) => (f s, l)) (run_client (S depth) p)
  end.
