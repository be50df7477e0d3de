(** java.util.zip.ZipFile.Window: classpath/java/util/zip/ZipFile.java:232-274. The file does not change;
    simplified: its length fits an int, and so does every start + length (the sums are not
    wrapped). *)
From Coq Require Import ZArith List Bool.
Import ListNotations.
Local Open Scope Z_scope.

(** ZipFile.java:233-241 *)
Record window := { data : list Z; start : Z; length : Z }.
Definition created (size : nat) : window := {| data := repeat 0 size; start := 0; length := 0 |}.
(** [file.readFully(data, 0, n)] at [from]: line 269-270. *)
Definition readFully (file : list Z) (from n : Z) (d : list Z) : list Z :=
  firstn (Z.to_nat n) (skipn (Z.to_nat from) file) ++ skipn (Z.to_nat n) d.
(** ZipFile.java:262-267: the new start *)
Definition place (fileLength len s n : Z) : Z :=
  let s1 := s - Z.quot (len - n) 2 in
  if s1 <? 0 then 0 else if fileLength <? s1 + len then fileLength - len else s1.
Inductive result := Offset (o : Z) | IllegalArgument | IOException.
(** ZipFile.java:243-273; [fails]: reading the file throws, with [data] as it was *)
Definition seek (file : list Z) (fails : bool) (s n : Z) (w : window) : window * result :=
  let fileLength := Z.of_nat (List.length file) in
  let size := Z.of_nat (List.length (data w)) in
  if size <? n then (w, IllegalArgument)
  else if s <? 0 then (w, IllegalArgument)
  else if fileLength <? s + n then (w, IllegalArgument)
  else if (s <? start w) || (start w + length w <? s + n) then
    let len := Z.min size fileLength in
    let st := place fileLength len s n in
    if fails then ({| data := data w; start := st; length := len |}, IOException)
    else ({| data := readFully file st len (data w); start := st; length := len |}, Offset (s - st))
  else (w, Offset (s - start w)).
