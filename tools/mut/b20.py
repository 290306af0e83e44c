F="Model/SizingFloat.v"; S="Model/Smooth3.v"; Q="Model/Laplace64.v"; M="Model/Mesh.v"; A="Model/Parallel.v"
MUT=[
 (F,"gradient_of_variance_f","rnd64 (1 / 10)","rnd64 (1 / 100)","C109: sizes offset by a hundredth",["C109_gradient_sizes"]),
 (F,"window_variance_f","rd t (s - rd t (m * m))","rd t (s - m)","C109: mean not squared",["C109_gradient_sizes"]),
 (F,"padded_bbox_f","else [lo 0%nat; bget b 1; lo 2%nat; hi 3%nat]","else [lo 0%nat; hi 1%nat; lo 2%nat; hi 3%nat]","C110: top padded",["C110_box"]),
 (F,"gradient_of_variance_f","rd t (v - mn)","rd t (v + mn)","C109: minimum added",[]),
 (F,"gradient_of_variance_f","amap (fun v => rd t (v / mx)) w","w","C109: variance not normalised",[]),
 (F,"padded_bbox_f","let hi i := rnd64 (bget b i + pad)","let hi i := rnd64 (bget b i + 2 * pad)","C110: padded twice",[]),
 (F,"padded_bbox_f","lo 2%nat; hi 3%nat; lo 4%nat; hi 5%nat]","lo 2%nat; hi 3%nat; lo 4%nat; bget b 5]","C110: third axis padded on one side",[]),
 (S,"laplacian2_call","if (w =? 2)%nat then laplacian2","if (w =? 3)%nat then laplacian2","C126: three columns go to the smoother",[]),
 (S,"laplacian2_call","| S _ => Err ValueError end\n  | _ => Err OtherError","| S _ => Ok (p, t) end\n  | _ => Err OtherError","C126: three columns returned unchanged",[]),
 (S,"laplacian2_call","match max_iter with O => Ok (p, t)","match max_iter with O => Err ValueError","C126: raises with max_iter = 0",[]),
 (S,"laplacian2_call","(length (nbrs t v) =? 0)%nat) (seq 0 n) then Ok (p, t)","(length (nbrs t v) =? 0)%nat) (seq 0 n) then Err OtherError","C126: unused vertex raises",[]),
 (S,"fixed_point_raises","[] => Some IndexError","[] => None","C126: no boundary does not raise",[]),
 (S,"fixed_point_raises","if (w =? 2)%nat then None else Some ValueError","None","C126: three columns accepted by the fixed point",[]),
 (S,"fixed_point_raises","get_boundary_vertices uniq 2 t","get_boundary_vertices uniq 3 t","C126: boundary of facets",[]),
 (M,"is_manifold","2 * length be =? ncol * length","2 * length be =? 2 * length","C126: number of columns replaced by two",[]),
 (M,"is_manifold","[] => Err IndexError\n  | _ => Ok (2","[] => Ok false\n  | _ => Ok (2","C126: no boundary answers False",[]),
 (M,"get_boundary_vertices","if dim =? 2 then get_boundary_edges uniq 2 t","if dim =? 3 then get_boundary_edges uniq 2 t","C126: dimension test swapped",[]),
 (M,"rows_with_count","filter (fun","filter (fun x => negb (fst x =? 0)) ++ filter (fun","(pattern)",[]),
 (Q,"sum64","fold_left (fun s x => rnd64 (s + x)) l 0","fold_left (fun s x => s + x) l 0","C127: sums without rounding",[]),
 (Q,"sum64","fold_left (fun s x => rnd64 (s + x)) l 0","fold_left (fun s x => rnd64 (s + x)) l 1","C127: sums start at 1",[]),
 (Q,"lap_sweep64","if existsb (Nat.eqb v) fixed then nth v p []\n    else map","if existsb (Nat.eqb v) [] then nth v p []\n    else map","C127: fixed vertices move",[]),
 (Q,"lap_sweep64","/ INR (length (nbrs t v)))","/ INR (S (length (nbrs t v))))","C127: divided by one more",[]),
 (Q,"sq64","map2 (fun a b => rnd64 (a - b)) p q","map2 (fun a b => rnd64 (a + b)) p q","C127: closest node by the sum",[]),
 (Q,"lap_loop64","if Rltb move tol then p' else","if Rltb move tol then p else","C127: last sweep dropped",[]),
 (Q,"lap_loop64","tol L' p'","tol L p'","C127: lengths compared with the first ones",[]),
 (Q,"laplacian2_64","max_iter t fixed es tol","(S max_iter) t fixed es tol","C127: one sweep more",[]),
 (Q,"laplacian2_64","Err IndexError\n       | _, Some []","Ok (p, t)\n       | _, Some []","C127: no boundary returns the mesh",[]),
 (Q,"closest_node64","argmin (map (fun r => sq64 r q) p)","argmin (map (fun r => sum64 (map2 (fun a b => Rabs (a - b)) r q)) p)","C127: closest in the 1-norm",[]),
 (Q,"edge_lens64","if Rltb l eps52 then eps52 else l","l","C127: lengths not clipped",[]),
 (A,"own_extent","max_list (column i p) + (if (i =? axis)%nat then 5 * h0 else 0)","max_list (column i p) + (if (i =? axis)%nat then 3 * h0 else 0)","C89: upper extent padded by 3 h0 only",[]),
 (A,"own_extent","min_list (column i p) - (if (i =? axis)%nat then 5 * h0 else 0)","min_list (column i p)","C89: lower extent not padded",[]),
]
MUT=[m for m in MUT if m[4]!="(pattern)"]
