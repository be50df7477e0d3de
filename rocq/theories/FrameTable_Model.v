(** The table of reference maps of a compiled method, and its use by the collector:
    src/compile.cpp. *)
From Coq Require Import ZArith Lia Bool List.
Import ListNotations.
Local Open Scope Z_scope.

(** unsigned and int32_t arithmetic. *)
Definition u32 (x : Z) : Z := x mod 2 ^ 32.
Definition s32 (x : Z) : Z := (x + 2 ^ 31) mod 2 ^ 32 - 2 ^ 31.

(** ceilingDivide, include/avian/util/math.h 35-38: the arguments are unsigned. *)
Definition ceilingDivide (n d : Z) : Z := u32 (u32 n + u32 d - 1) / u32 d.

(** TraceElement (compile.cpp 794-836) as far as the table needs it: the address of
    the call relative to the start of the code, the map, argumentIndex. *)
Record elem := { offset : Z; bits : Z; argumentIndex : Z }.

(** Reads and writes of the elements of an array; [None]: outside the array. *)
Definition get (l : list Z) (i : Z) : option Z :=
  if (0 <=? i) && (i <? Z.of_nat (length l)) then Some (nth (Z.to_nat i) l 0) else None.
Definition set (l : list Z) (i v : Z) : option (list Z) :=
  if (0 <=? i) && (i <? Z.of_nat (length l))
  then Some (firstn (Z.to_nat i) l ++ v :: skipn (S (Z.to_nat i)) l) else None.

(** setBit and clearBit, compile.cpp 7030-7038; [dst]: where the maps start in the
    table.  Words are bit patterns. *)
Definition setBit (table : list Z) (dst index : Z) : option (list Z) :=
  match get table (dst + index / 32) with
  | Some w => set table (dst + index / 32) (Z.lor w (Z.shiftl 1 (index mod 32)))
  | None => None
  end.
Definition clearBit (table : list Z) (dst index : Z) : option (list Z) :=
  match get table (dst + index / 32) with
  | Some w => set table (dst + index / 32) (Z.land w (Z.lnot (Z.shiftl 1 (index mod 32))))
  | None => None
  end.

(** copyFrameMap, compile.cpp 7040-7070: [n] more bits from [j] on. *)
Fixpoint copyFrameMap (n : nat) (table : list Z) (dst src off j : Z) : option (list Z) :=
  match n with
  | O => Some table
  | S n' =>
      match (if Z.testbit src j then setBit table dst (u32 (off + j)) else clearBit table dst (u32 (off + j))) with
      | Some table' => copyFrameMap n' table' dst src off (j + 1)
      | None => None
      end
  end.

(** The loop of makeSimpleFrameMapTable, compile.cpp 7121-7137. *)
Fixpoint fill (mapSize count : Z) (es : list elem) (i : Z) (table : list Z) : option (list Z) :=
  match es with
  | [] => Some table
  | e :: es' =>
      match set table i (s32 (offset e)) with
      | None => None
      | Some t1 =>
          match (if mapSize =? 0 then Some t1
                 else copyFrameMap (Z.to_nat (argumentIndex e)) t1 count (bits e) (u32 (i * mapSize)) 0) with
          | None => None
          | Some t2 => fill mapSize count es' (i + 1) t2
          end
      end
  end.

(** makeSimpleFrameMapTable, compile.cpp 7107-7140. *)
Definition makeTable (mapSize : Z) (es : list elem) : option (list Z) :=
  let count := Z.of_nat (length es) in
  fill mapSize count es 0
       (repeat 0 (Z.to_nat (u32 (count + ceilingDivide (u32 (count * mapSize)) 32)))).

(** simpleFrameMapTableSize, compile.cpp 3148-3152. *)
Definition tableSize (mapSize : Z) (table : list Z) : Z :=
  ceilingDivide (Z.of_nat (length table) * mapSize) (32 + mapSize).

(** The search of findFrameMapInSimpleTable, compile.cpp 7826-7841; [None]: abort. *)
Fixpoint search (fuel : nat) (table : list Z) (off bottom top : Z) : option Z :=
  match fuel with
  | O => None
  | S f =>
      let span := top - bottom in
      if span =? 0 then None
      else
        let middle := bottom + span / 2 in
        match get table middle with
        | None => None
        | Some v => if off =? v then Some middle
                    else if off <? v then search f table off bottom middle
                    else search f table off (middle + 1) top
        end
  end.

(** findFrameMapInSimpleTable, compile.cpp 7814-7844: where the maps start, and the
    first bit of the map. *)
Definition findFrameMap (mapSize : Z) (table : list Z) (off : Z) : option (Z * Z) :=
  let indexSize := u32 (Z.of_nat (length table) - tableSize mapSize table) in
  match search (S (Z.to_nat indexSize)) table off 0 indexSize with
  | Some middle => Some (indexSize, u32 (mapSize * middle))
  | None => None
  end.

(** The loop of visitStackAndLocals, compile.cpp 7877-7882: the slots visited.  C
    division and remainder truncate. *)
Fixpoint visitLoop (n : nat) (table : list Z) (map start i : Z) : option (list Z) :=
  match n with
  | O => Some []
  | S n' =>
      let j := s32 (start + i) in
      match get table (map + Z.quot j 32) with
      | None => None
      | Some w =>
          match visitLoop n' table map start (i + 1) with
          | None => None
          | Some l => Some (if Z.testbit w (Z.rem j 32) then i :: l else l)
          end
      end
  end.

(** visitStackAndLocals, compile.cpp 7856-7884. *)
Definition visit (mapSize : Z) (table : list Z) (off : Z) : option (list Z) :=
  if mapSize =? 0 then Some []
  else match findFrameMap mapSize table off with
       | None => None
       | Some (map, start) => visitLoop (Z.to_nat mapSize) table map start 0
       end.
