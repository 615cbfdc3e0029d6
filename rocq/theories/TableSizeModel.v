(** Model of TestPreComputeTableSize: /repo/experiments/finaltests.go:210-224, and of the six calls of
    TestDifferentPrecomputationTableSize (294-302). *)
From Coq Require Import ZArith List.
From Verif Require Import GoBig AccModel HashModel ExperimentModel.
Import ListNotations.
Open Scope Z_scope.

(** A 64-bit Go int: the result of an operation reduced to [-2^63, 2^63). *)
Definition int64 (x : Z) : Z := (x + 2 ^ 63) mod 2 ^ 64 - 2 ^ 63.
(** What is printed: rows, columns, size of an element (lines 222), total bytes (line 223). Go's / truncates towards
    zero. table.TableSize is the third argument of NewPrecomputeTable. *)
Record table_print := { tp_rows : Z; tp_columns : Z; tp_element : Z; tp_bytes : Z }.
Definition TestPreComputeTableSize (setSize : Z) : table_print :=
  let maxLen := Z.quot (int64 (setSize * 2048)) UintSize in
  {| tp_rows := maxLen; tp_columns := UintSize; tp_element := UintSize;
     tp_bytes := Z.quot (int64 (int64 (maxLen * UintSize) * UintSize)) 8 |}.
Definition table_sizes : list Z := [1024; 4096; 16384; 65536; 262144; 1048576].
Definition TestDifferentPrecomputationTableSize : list table_print := map TestPreComputeTableSize table_sizes.
