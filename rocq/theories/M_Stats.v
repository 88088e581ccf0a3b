(** Model of MidiDataset.compute_statistics and total_num_classes.
    Simplifications: iterating a dataset yields the stored graphs; exceptions carry their kind only. *)
From Verif Require Import PyBase M_Note M_Seq M_Chord M_Graph M_Dataset.
Open Scope Z_scope.

(** Sums over the graphs; torch.unique(None) raises. [midi_dataset.py:389-403] *)
Fixpoint statistics (nodes edges labels : Z) (l : list item) : res (Z * Z * Z) :=
  match l with
  | [] => Ok (nodes, edges, labels)
  | i :: r => match p_label (i_pyg i) with
              | None => Err TypeError
              | Some ls => statistics (nodes + Z.of_nat (num_nodes (i_pyg i))) (edges + Z.of_nat (List.length (edge_index (p_graph (i_pyg i)))))
                             (labels + Z.of_nat (List.length (nodup Z.eq_dec ls))) r
              end
  end.
(** midi_dataset.py:389-403 compute_statistics *)
Definition compute_statistics (c : content) : res (Z * Z * Z) := statistics 0 0 0 (f_graphs c).
(** midi_dataset.py:405-410 total_num_classes *)
Definition total_num_classes (c : content) : Z := Z.of_nat (List.length (f_i2h c)).
