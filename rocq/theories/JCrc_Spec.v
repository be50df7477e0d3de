(** CRC-32 as in ISO 3309, ITU-T V.42, gzip and zip (RFC 1952, section 8), bit by bit. *)
From Coq Require Import NArith List Bool.
From Verif Require Import JCrc_Model.
Import ListNotations.
Local Open Scope N_scope.

Definition crcBit (c : N) : N := if N.odd c then N.lxor (N.div2 c) 0xEDB88320 else N.div2 c.
Definition crcByte (c b : N) : N :=
  crcBit (crcBit (crcBit (crcBit (crcBit (crcBit (crcBit (crcBit (N.lxor c b)))))))).
Definition crc32 (bytes : list N) : N := N.lxor (fold_left crcByte bytes 0xFFFFFFFF) 0xFFFFFFFF.
(** The values given, [sofar] being the bytes since the beginning or the last reset. *)
Fixpoint values (cs : list call) (sofar : list N) : list N :=
  match cs with
  | [] => []
  | UpdateByte b :: r => values r (sofar ++ [b mod 256])
  | UpdateArray l :: r => values r (sofar ++ map (fun b => b mod 256) l)
  | Reset :: r => values r []
  | GetValue :: r => crc32 sofar :: values r sofar
  end.
