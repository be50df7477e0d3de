(** UTF-16 contents of strings and the modified UTF-8 encoding of the JVM specification
    (4.4.7). *)
From Coq Require Import NArith List Bool.
From Verif Require Import Utf8_Model.
Import ListNotations.
Local Open Scope N_scope.

(** The UTF-16 units a string stands for. *)
Definition units (s : jstring) : list N := match s with BytesS b => b | CharsS c => c end.

(** Strings as the VM builds them: byte arrays hold ASCII only, chars are 16-bit. *)
Definition validString (s : jstring) : Prop :=
  match s with
  | BytesS b => Forall (fun u => u < 0x80) b
  | CharsS c => Forall (fun u => u < 0x10000) c
  end.

(** Modified UTF-8: 1..0x7f in one byte; 0 and 0x80..0x7ff in two, 110xxxxx 10xxxxxx;
    0x800..0xffff in three, 1110xxxx 10xxxxxx 10xxxxxx. *)
Definition modifiedUtf8Unit (u : N) : list N :=
  if (1 <=? u) && (u <=? 0x7f) then [u]
  else if u <=? 0x7ff then [0xC0 + u / 64; 0x80 + u mod 64]
  else [0xE0 + u / 4096; 0x80 + u / 64 mod 64; 0x80 + u mod 64].
Definition modifiedUtf8 (us : list N) : list N := flat_map modifiedUtf8Unit us.

(** The part of a unit sequence before the first U+0000. *)
Fixpoint beforeNul (us : list N) : list N :=
  match us with [] => [] | u :: r => if u =? 0 then [] else u :: beforeNul r end.
