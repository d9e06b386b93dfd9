(** The options attach, to and order_by_attach of an index, read whenever it is opened. *)
From Coq Require Import NArith Arith List Bool.
From Verif Require Import Validate.
Import ListNotations.

(** A column of the index: name (a number), type, whether by value, and the type of attached values its class's config function
    asks for.  The options as stored. *)
Record column := mkColumn { c_name : N; c_type : oid; c_byval : bool; c_config : option oid }.
Record options := mkOptions { o_attach : option N; o_to : option N; o_order : bool }.

(** get_attnum: 1-based; 0 if there is no such column. *)
Fixpoint find_name (k : nat) (names : list N) (n : N) : nat :=
  match names with [] => O | m :: rest => if N.eqb m n then k else find_name (S k) rest n end.
Definition get_attnum (names : list N) (n : N) : nat := find_name 1 names n.

(** One of the two column options (rumutil.c:184-199, 201-219): the attribute number in the index, 0 if the option is not given;
    [None]: an error. *)
Definition columnOption (table index : list N) (o : option N) : option nat :=
  match o with
  | None => Some O
  | Some n => if get_attnum table n =? 0 then None else if get_attnum index n =? 0 then None else Some (get_attnum index n)
  end.
(** The options part of initRumState (rumutil.c:178-234): attrnAttachColumn, attrnAddToColumn, useAlternativeOrder. *)
Definition initOptions (table : list N) (index : list column) (rd_options : option options) : option (nat * nat * bool) :=
  match rd_options with
  | None => Some (O, O, false)
  | Some o =>
      match columnOption table (map c_name index) (o_attach o), columnOption table (map c_name index) (o_to o) with
      | Some attach, Some to =>
          if match o_to o with Some _ => to =? attach | None => false end then None
          else if negb (negb (attach =? 0) && negb (to =? 0)) then None
          else Some (attach, to, o_order o)
      | _, _ => None
      end
  end.
(** The loop over the columns (rumutil.c:236-258): the type of the values attached to the column's entries. *)
Fixpoint initColumns (all : list column) (attach to : nat) (alt : bool) (i : nat) (cols : list column) : option (list (option oid)) :=
  match cols with
  | [] => Some []
  | c :: rest =>
      let here :=
        if to =? i then
          match c_config c with
          | Some _ => None
          | None =>
              match nth_error all (attach - 1) with
              | Some ca => if alt && negb (c_byval ca) then None else Some (Some (c_type ca))
              | None => None
              end
          end
        else Some (c_config c) in
      match here, initColumns all attach to alt (S i) rest with
      | Some ty, Some tys => Some (ty :: tys)
      | _, _ => None
      end
  end.
(** initRumState (rumutil.c:165-314), as far as it depends on the options. *)
Definition initState (table : list N) (index : list column) (rd_options : option options) : option (nat * nat * bool * list (option oid)) :=
  match initOptions table index rd_options with
  | None => None
  | Some (attach, to, alt) =>
      match initColumns index attach to alt 1 index with
      | Some tys => Some (attach, to, alt, tys)
      | None => None
      end
  end.
