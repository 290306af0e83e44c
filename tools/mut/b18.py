L="Model/Laplace.v"; G="Model/Generator.v"; C="Model/Calls.v"; D="Model/SDF.v"; F="Model/Forces.v"; Q="Model/Formulas.v"; M="Model/Migration.v"; N="Model/Newton.v"; Z="Model/SizingFloat.v"
MUT=[
 (L,"adj_entries","[(0,1);(0,2);(1,0);(1,2);(2,0);(2,1)]%nat","[(0,1);(1,2);(2,0)]%nat","C120: neighbours counted in one direction only",[]),
 (L,"lap_sweep","/ INR (length (nbrs t v))) [0; 1]%nat","/ INR (S (length (nbrs t v)))) [0; 1]%nat","C120: average divides by one too many",[]),
 (L,"lap_sweep","if existsb (Nat.eqb v) fixed then nth v p []\n","if negb (existsb (Nat.eqb v) fixed) then nth v p []\n","C120: boundary moved, interior held",[]),
 (L,"coo_entries","(a, b, -1); (b, a, -1)]","(a, b, -1); (b, a, 1)]","C120: stiffness matrix not symmetric",[]),
 (L,"coo_entries","[(1,2);(2,0);(0,1)]%nat) t.","[(1,2);(2,0)]%nat) t.","C120: an edge of every triangle left out of the system",[]),
 (L,"lap_loop","if Rltb move tol then p' else","if Rltb move tol then p else","C120: last sweep dropped",[]),
 (Q,"centroid","/ INR (S dim)) (seq 0 dim)","/ INR (S (S dim))) (seq 0 dim)","C121: centroid divided by dim+2 depends on the origin",[]),
 (F,"mid","map2 (fun x y => (x + y) / 2)","map2 (fun x y => (x + y))","C121: size evaluated at the sum of the ends",[]),
 (G,"perturb_points","map2 (fun x d => x + step * h0 * d)","map2 (fun x d => x * (1 + step * h0 * d))","C121: sliver moved relative to the origin",[]),
 (D,"translate_back","map2 (fun xi ti => xi - ti) x t","map2 (fun xi ti => xi + ti) x t","C121: translation in the wrong direction",[]),
 (D,"shift_box","(lo + v) :: (hi + v) :: shift_box b' t'","(lo + v) :: hi :: shift_box b' t'","C121: upper end of the box not moved",[]),
 (D,"build_translation","Some t => (shift_box (fst s) t, snd s) end","Some t => (shift_box (fst s) t, option_map (map (map2 Rplus t)) (snd s)) end","C121: (repair) corners move along",[]),
 (Q,"circumsphere_grad","let x1 := p0x - p3x in let y1","let x1 := p0x in let y1","C121: circumsphere relative to the origin",[]),
 (C,"read_domain","match fst bh with None => fst tb | Some _ => true end","match fst bh with None => true | Some _ => fst tb end","C107: size object on a list box refused",[]),
 (C,"fd_of","GeomV _ _ _ f => f | FunV f => f","GeomV _ _ _ f => f | FunV f => fun x => - f x","C107: sign of subdomain functions",[]),
 (C,"h0_of","match given \"h0\" kw with None => Ok None","match given \"hmin\" kw with None => Ok None","C107: h0 read under another name",[]),
 (C,"read_sliver_options","(opt \"max_dh_angle_bound\" (ANum (PFloat 180)) kw)","(opt \"max_dh_angle_bound\" (ANum (PFloat 170)) kw)","C107: documented default used",[]),
 (C,"call_sliver_removal","if existsb (fun x => (length x =? 2)%nat) points then Err OtherError else\n         rbind","rbind","C107: 2D points accepted at the call",[]),
 (C,"with_subs","(o_points o) (o_delta_t o) (o_geps_mult o) subs","(o_points o) (o_delta_t o) (o_geps_mult o) None","C107: subdomains ignored",[]),
 (M,"aggregated","gather (cumsum 0 off_p) 1","gather (cumsum 0 off_p) 2","C57 C77: offset of the next rank used",[]),
 (Z,"gradient_of_variance_f","rd t (rnd64 (1 / 10))","rd t (rnd64 (1 / 100))","C109 C110: smaller denominator",[]),
 (Z,"window_variance_f","rd t (s - rd t (m * m))","rd t (s - m)","C109 C110: mean not squared",[]),
 (Z,"padded_bbox_f","then [lo 0%nat; bget b 1; lo 2%nat; hi 3%nat; lo 4%nat; hi 5%nat]","then [lo 0%nat; hi 1%nat; lo 2%nat; hi 3%nat; lo 4%nat; hi 5%nat]","C109 C110: top of the box padded",[]),
]
