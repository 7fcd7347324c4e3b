(** Model of backends/table_impl.py:66-251 (TableReader), 837-869 (MultiTableReader) and 872-964
    (write_impl).  A record batch of one table is the list of its rows; a source is the list of
    batches the underlying pyarrow reader yields.  Simplifications: pyarrow readers do not fail;
    schemas, casts and the bytes of the files are not modelled, a file is the list of batches
    written, one batch being the list of the tables' pieces put side by side. *)
From Coq Require Import List Arith ZArith Bool.
Import ListNotations.

Section Table.
  Context {A : Type}.

  (** ** TableReader, table_impl.py:74-103 *)
  Record reader : Type := Reader { r_src : list (list A); r_remain : option (list A); r_eof : bool; r_bs : Z }.
  Definition open_reader (src : list (list A)) (bs : Z) : reader := Reader src None false bs.

  (** table_impl.py:196-216: collect batches until [b] rows are there; empty batches are skipped *)
  Fixpoint fill (b n : nat) (acc : list (list A)) (src : list (list A)) : list (list A) * nat * list (list A) * bool :=
    if n <? b then
      match src with
      | [] => (acc, n, [], true)
      | x :: src' => fill b (n + length x) (if 0 <? length x then acc ++ [x] else acc) src'
      end
    else (acc, n, src, false).
  (** pa.Table.from_batches(batches).to_batches(): one record batch per chunk, chunks are not merged *)
  Definition to_batches (batches : list (list A)) : list (list A) := batches.
  (** table_impl.py:233-239 *)
  Definition combine (batches : list (list A)) : list A :=
    match batches with
    | [x] => x
    | _ => hd [] (to_batches batches)
    end.
  (** table_impl.py:186-231: the collected batches and the new state *)
  Definition next_group (st : reader) : option (list (list A)) * reader :=
    let b := Z.to_nat (r_bs st) in
    let '(acc0, n0) := match r_remain st with Some r => ([r], length r) | None => ([], 0) end in
    let '(acc, n, src, eof) := fill b n0 acc0 (r_src st) in
    if n =? 0 then (None, Reader src None eof (r_bs st))
    else if b <? n then
      let last := List.last acc [] in
      let remain_size := n - b in
      let last_size := length last - remain_size in
      (Some (removelast acc ++ [firstn last_size last]), Reader src (Some (skipn last_size last)) eof (r_bs st))
    else (Some acc, Reader src None eof (r_bs st)).
  (** table_impl.py:134-183 and 233-239; None is StopIteration *)
  Definition read_next (st : reader) : option (list A) * reader :=
    if r_eof st then (None, st)
    else if (r_bs st <=? 0)%Z then
      match r_src st with
      | x :: src => (Some x, Reader src (r_remain st) false (r_bs st))
      | [] => (None, Reader [] (r_remain st) true (r_bs st))
      end
    else
      match next_group st with
      | (None, st') => (None, Reader (r_src st') (r_remain st') true (r_bs st'))
      | (Some g, st') => (Some (combine g), st')
      end.

  (** ** MultiTableReader.read_next_batch, table_impl.py:853-865 *)
  Inductive mres : Type := MBatch (pieces : list (list A)) | MStop | MErr.
  Fixpoint multi_from (num_rows : option nat) (rs : list reader) : mres * list reader :=
    match rs with
    | [] => (MBatch [], [])
    | r :: rs' =>
        match read_next r with
        | (None, r') => (MStop, r' :: rs')
        | (Some batch, r') =>
            if match num_rows with Some n => negb (n =? length batch) | None => false end then (MErr, r' :: rs')
            else
              let (m, rs2) := multi_from (Some match num_rows with Some n => n | None => length batch end) rs' in
              (match m with MBatch ps => MBatch (batch :: ps) | _ => m end, r' :: rs2)
        end
    end.
  (** the reader given to the writer, table_impl.py:899-901 *)
  Definition next_batch (rs : list reader) : mres * list reader :=
    match rs with
    | [r] => let (o, r') := read_next r in (match o with Some b => MBatch [b] | None => MStop end, [r'])
    | _ => multi_from None rs
    end.
  (** for batch in reader: writer.write_batch(batch), table_impl.py:948-953.
      [drains rs bs e]: the loop writes [bs] and ends with StopIteration (e = false) or an error *)
  Inductive drains : list reader -> list (list (list A)) -> bool -> Prop :=
  | D_stop rs rs' : next_batch rs = (MStop, rs') -> drains rs [] false
  | D_err rs rs' : next_batch rs = (MErr, rs') -> drains rs [] true
  | D_batch rs rs' b bs e : next_batch rs = (MBatch b, rs') -> drains rs' bs e -> drains rs (b :: bs) e.

  (** ** write_impl, table_impl.py:872-956 *)
  Inductive table : Type :=
  | InMemory (chunks : list (list A))        (* pa.Table *)
  | FileSource (chunks : list (list A))      (* FileTableSource *)
  | QuerySource (chunks : list (list A)).    (* QueryTableSource: batches as DuckDB delivers them *)
  Definition chunks_of (t : table) : list (list A) := match t with InMemory c | FileSource c | QuerySource c => c end.
  (** table_impl.py:889-897, 511, 537; [default] is DEFAULT_BATCH_SIZE *)
  Definition open_table (default : Z) (many : bool) (t : table) : reader :=
    match t with
    | InMemory c => open_reader c (-1)
    | FileSource c => open_reader c (if many then default else -1)
    | QuerySource c => open_reader c (-1)
    end.
  Definition open_all (default : Z) (ts : list table) : list reader := map (open_table default (1 <? length ts)) ts.
  Inductive format : Type := Parquet | Csv | Json.
  Definition file : Type := list (list (list A)).
  (** table_impl.py:911-956: what the call returns (true: no exception) and what is at the path
      afterwards; [prev] is what was there before.  The Parquet and CSV writers open the file at
      once, the JSON writer only in close(), which runs after the removal of the file. *)
  Definition json_close (batches : list (list (list A))) (old : option file) : bool * option file :=
    match batches with [] => (false, old) | _ => (true, Some batches) end.
  Definition finish (fmt : format) (prev : option file) (batches : list (list (list A))) (failed : bool) : bool * option file :=
    match fmt with
    | Parquet | Csv => if failed then (false, None) else (true, Some batches)
    | Json =>
        let at_path := if failed then None else prev in
        let (ok, f) := json_close batches at_path in
        (if failed then false else ok, f)
    end.
  Inductive write (default : Z) (ts : list table) (fmt : format) (prev : option file) : bool -> option file -> Prop :=
  | Write bs e : drains (open_all default ts) bs e -> write default ts fmt prev (fst (finish fmt prev bs e)) (snd (finish fmt prev bs e)).

  (** ** reading a table to the end *)
  Inductive reads : reader -> list (list A) -> Prop :=
  | R_end st st' : read_next st = (None, st') -> reads st []
  | R_batch st st' b bs : read_next st = (Some b, st') -> reads st' bs -> reads st (b :: bs).
End Table.
Arguments reader : clear implicits. Arguments mres : clear implicits. Arguments table : clear implicits. Arguments file : clear implicits.
