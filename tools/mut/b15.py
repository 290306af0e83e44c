MUT = [
 ("Model/Calls.v","truth","| ANum n => negb (Reqb (nval n) 0)","| ANum n => Reqb (nval n) 0","C107: numbers as flags inverted",["C107_flags"]),
 ("Model/Calls.v","seed_check","| ANone | ABool _ => Ok tt","| ANone | ABool _ => Err TypeError","C107: seed None refused",["C107_seed_values"]),
 ("Model/Parallel.v","local_grid_sizes","MSizing vecs (map fh (grid_of vecs))","MSizing vecs (map fh (rev (grid_of vecs)))","C116: values sent backwards",["C116_message"]),
 ("Model/Parallel.v","sizing_in","interp vecs","interp (rev vecs)","C116: interpolant built with the axes reversed",["C116_message"]),
 ("Model/WhereTo.v","do_overlap","negb (Rltb b c) && negb (Rltb d a)","Rltb c b && negb (Rltb d a)","C117: strict overlap, a touching cell is not sent",[]),
 ("Model/WhereTo.v","element_hi","max_list (map (fun p => nth k p 0%R) s)","min_list (map (fun p => nth k p 0%R) s)","C117: upper corner of the element wrong",[]),
 ("Model/WhereTo.v","scan","if Reqb (simp_vol s) 0 then scan rest","if Reqb (simp_vol s) 0 then None","C117: a sliver stops the search",[]),
 ("Model/WhereTo.v","scan","else if meets s box2 then Some true","else if meets s box2 then None","C117: nothing is sent up",[]),
 ("Model/WhereTo.v","scan","(fst box1) (snd box1) || do_overlap","(fst box1) (snd box1) && do_overlap","C117: both boxes must be met",[]),
 ("Model/WhereTo.v","lower_box","extent_box d extents (rank - 1)","extent_box d extents rank","C117: own box instead of the one below",[]),
 ("Model/WhereTo.v","upper_box","then dummy_box d else extent_box d extents (rank + 1)","then dummy_box d else extent_box d extents (rank - 1)","C117: box below used for the one above",[]),
 ("Model/WhereTo.v","extent_box","(firstn d e, firstn d (skipn d e))","(firstn d e, firstn d e)","C117: box degenerates to its lower corner",[]),
 ("Model/WhereTo.v","vtoe","(seq 0 (length faces))","(seq 1 (length faces - 1))","C117: first cell forgotten",[]),
 ("Model/WhereTo.v","read_table","nsa := Z.to_nat (Ztrunc (nth 1 (nth 0 t []) 0%R))","nsa := Z.to_nat (Ztrunc (nth 0 (nth 0 t []) 0%R))","C117: number sent up misread",[]),
 ("Model/WhereTo.v","export_writes","| Some true => row_writes points (kb * S d + above_count * S d + S d) v","| Some true => row_writes points (above_count * S d + S d) v","C117: rows for above overwrite rows for below",[]),
]
