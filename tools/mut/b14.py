PA='Model/Parallel.v'; GE='Model/Generator.v'; ME='Model/Mesh.v'; IG='Model/InitGrid.v'; IT='Model/Interp.v'; LO='Model/Localize.v'
MUT=[
(GE,'cube_fd','(Cube x1 x2 y1 y2 z1 z2 no_manip)) | _ => None','(Cube x1 x2 z1 z2 y1 y2 no_manip)) | _ => None','C73: replacement cube with swapped axes',['C73_last_triangulation','C101_rounds']),
(GE,'sliver_removal','if box_eqb (dom_bbox d) b1 then Some (dom_fd d) else cube_fd','if negb (box_eqb (dom_bbox d) b1) then Some (dom_fd d) else cube_fd','C73: domain and padded box exchanged',['C73_last_triangulation']),
(GE,'sliver_removal','else cube_fd (full_bbox d s)','else cube_fd b1','C101: box of the size function alone',['C101_rounds']),
(PA,'flat_index',"(i * length (grid_of vs) + flat_index vs k')%nat","(i * length vs + flat_index vs k')%nat",'C116: wrong stride of the sent array',['C116_exact_at_nodes']),
(PA,'flat_index',"(i * length (grid_of vs) + flat_index vs k')%nat","(i + length v * flat_index vs k')%nat",'C116: Fortran order of the sent array',['C116_exact_at_nodes']),
(PA,'local_grid_sizes','MSizing vecs (map fh (grid_of vecs))','MSizing vecs (map fh (rev (grid_of vecs)))','C116: values sent backwards',[]),
(PA,'sizing_in','interp vecs','interp (rev vecs)','C116: interpolant built with the axes reversed',[]),
(IG,'sizing_span','(limit b size rank, limit b size (S rank))','(limit b size (S rank), limit b size (S rank))','C116: sampled from the upper end of the slice',[]),
(IG,'sizing_vectors','arange (fst b - 3 * h0) (snd b + 3 * h0) h0','arange (fst b - 3 * h0) (snd b + 2 * h0) h0','C116: less padding above',[]),
(IG,'sizing_vectors','arange (fst b - 3 * h0) (snd b + 3 * h0) h0','arange (fst b - 3 * h0) (snd b + 3 * h0) (2 * h0)','C116: sampled at 2 h0',[]),
(IG,'sizing_vectors','if (i =? axis)%nat then sizing_span','if negb (i =? axis)%nat then sizing_span','C116: sliced along the wrong axes',[]),
(IT,'cell_of','Nat.min (count_lt g x - 1) (length g - 2)','Nat.min (count_lt g x) (length g - 2)','C116: cell one too high',[]),
(IT,'weight','(x - nth i g 0) / (nth (S i) g 0 - nth i g 0)','(nth (S i) g 0 - x) / (nth (S i) g 0 - nth i g 0)','C116: weights exchanged',[]),
(PA,'localize_points_p','Done (Ok (nth 0 blocks [], ext))','Done (Ok (nth 1 blocks [], ext))','C89: rank 0 keeps the wrong block',[]),
(PA,'own_extent','min_list (column i p) - (if (i =? axis)%nat then 5 * h0 else 0)','min_list (column i p) + (if (i =? axis)%nat then 5 * h0 else 0)','C89: extents shrunk on the low side',[]),
(PA,'with_ghosts','nth rank ext []','nth 0 ext []','C89: ghost cells with respect to rank 0',[]),
(ME,'kept_rows','filter (fun e => poor min_qual (qual e)) bele','filter (fun e => poor min_qual (qual e)) (firstn 1 bele)','C115: only the first poor boundary entity goes, whichever it is',[]),
(ME,'get_boundary_edges','rows_with_count uniq (dim - 1) (map sort_nat (get_edges dim t))','rows_with_count uniq (dim - 1) (get_edges dim t)','C115: edges compared unsorted',[]),
(ME,'is_manifold','2 * length be =? ncol * length (unique_nat (concat be))','2 * length be =? ncol * S (hd O (rev (unique_nat (concat be))))','C115: vertices counted by the largest number',[]),
(ME,'fix_mesh','t1 := uniqR (map (fun r => sort_nat (map (fun v => nth v jx O) r)) t)','t1 := uniqR (map (fun r => map (fun v => nth v jx O) r) t)','C115: duplicate cells in another corner order kept',[]),
(ME,'get_facets','[[0;1;3];[1;2;3];[2;0;3];[1;2;0]]','[[0;1;3];[1;2;3];[2;0;3]]','C115: one facet per cell missing',[]),
]
