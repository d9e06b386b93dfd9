(** Leaf pages with the byte-level item sizes of Codec.v: instantiation.  Model file. *)
From Verif Require Import Base Codec LeafPage.
From Coq Require Import NArith.

(** RumDataPageSize (rum.h:313-317): BLCKSZ 8192, page header 24, right bound 16,
    opaque 16 bytes, item index 32 * 24 bytes. *)
Definition RumDataPageSize : N := 8192 - 24 - 16 - 16 - 32 * 24.

(** rumCheckPlaceToDataPageLeaf (rumdatapage.c:284-305) with the predecessor given as an item. *)
Definition item_size (alt : bool) (a : attr) (x p : item datum) (pos : N) : N :=
  rumCheckPlaceToDataPageLeaf alt a x (ip p) pos.

(** dataPlaceToPage / dataSplitPageLeaf on a real page. *)
Definition placeOnPage (alt : bool) (a : attr) (cmpA : datum -> datum -> Z) :=
  dataPlaceToPageLeaf (compareRumItem alt cmpA) item_min (item_size alt a) RumDataPageSize.
Definition splitPage (alt : bool) (a : attr) :=
  dataSplitPageLeaf (T:=item datum) item_min (item_size alt a) RumDataPageSize.
Definition findOnPage (alt : bool) (cmpA : datum -> datum -> Z) :=
  findInLeafPage (compareRumItem alt cmpA) (@item_min datum).
Definition freeOnPage (alt : bool) (a : attr) :=
  leafFree (T:=item datum) item_min (item_size alt a) RumDataPageSize.
