G='Model/Generator.v'; F='Model/Forces.v'; N='Model/Newton.v'; Z='Model/Sizing.v'; U='Model/UFilter.v'; S='Model/SDF.v'; X='Model/Simplex.v'; M='Model/Mesh.v'; FO='Model/Formulas.v'; I='Model/InitGrid.v'; D='Model/Dihedral.v'; L='Model/Laplace.v'
MUT=[
(F,'scale','map (fun e => fh (mid p e)) es) (1','map (fun e => fh (mid p e) + 1) es) (1','C103/C106: sizes shifted by one unit in the scale factor',[]) if False else
(F,'desired','fh (mid p e) * m * scale dim fh p es','fh (mid p e) * m','C103: the scale factor dropped',[]),
(F,'desired','fh (mid p e) * m * scale dim fh p es','m * scale dim fh p es','C103/C106: the size dropped from the desired length',[]),
(F,'scale','(1 / INR dim)','1','C103/C106: the root of the scale factor dropped',[]),
(F,'bar_len','then eps52 else l','then eps52 else l + eps52','C106: an absolute epsilon added to every bar',[]),
(F,'force_vec','/ bar_len p e * nth','* nth','C106: force not divided by the length',[]),
(G,'max_move','dt * max_list','max_list','C106: dt dropped (still scales: not a violation of C106; C80 claim)',[]),
(G,'mesh_loop','(1000 * g_h0 P)','1000','C106: the movement is compared with an absolute length',[]),
(G,'finish','(g_h0 P * (1 / 1000))','(1 / 1000)','C106: an absolute geps at the end',[]),
(G,'prepare','let geps := o_geps_mult o * h0 in','let geps := o_geps_mult o in','C106: an absolute geps',[]),
(G,'deps_of','/ 2 ^ 26 * h0','/ 2 ^ 26','C106: an absolute deps',[]),
(G,'r0m_of','then 11 / 10 * h0 else h0)','then 11 / 10 else h0)','C106: r0m in absolute units',[]),
(G,'initial_points','r0m ^ dim / nth i r0 0 ^ dim','r0m / nth i r0 0 ^ dim','C103/C106: power dropped in the acceptance ratio',[]),
(N,'newton','fd x * gi / dgrad2','gi / dgrad2','C106: Newton step without the value',[]),
(N,'outside_band','hmin / (15 / 10)','(15 / 10)','C106: band in absolute units',[]),
(N,'dgrad2','then deps else s','then 0 else s','C106: floor replaced by 0',[]),
(G,'perturb_points','step * h0 * d','step * d','C106: step not scaled with h0',[]),
(G,'perturb_of','map (fun x => x / n) g','g','C106: direction not normalised (scales like a length squared)',[]),
(S,'stdmin','if Rltb b a then b else a','if Rltb b a then b else 1','C106: rectangle distance with an absolute constant',[]),
(S,'ddisk','(y - yc) ^ 2) - r | _','(y - yc) ^ 2) - r * r | _','C106: radius squared',[]),
(I,'shift','then h0 / 2 else 0','then 1 / 2 else 0','C106: absolute stagger',[]),
(I,'n_nodes','(stop - start) / step','(stop - start)','C106: number of nodes ignores the step',[]),
(X,'simp_qual','/ (a * b * c / sqrt h)','/ (a * b / sqrt h)','C106: quality with a unit',[]),
(X,'sub_len','sqrt (fold_right','(fold_right','C106: squared length',[]),
(FO,'vertex_in_entity2','let c := 1 - a - b in','let c := 1 - a - b + (x - x3) in','C106: barycentric coordinate with a unit',[]),
(D,'dihedral_angle','let v1 := map (fun x => x / v1_div) v1 in','let v1 := v1 in','C106: edge vector not normalised (angles still invariant? acos of quotient: not a violation if both factors scale)',[]),
(Z,'convert_units','','','C104',[]) if False else
(Z,'wavelength_sizing','v / (freq * wl)','v / (freq + wl)','C104: sum of frequency and wavelength count',[]),
(Z,'gradient_of_variance','grad / (v + 1 / 10)','grad / (v + 1 / 10) + 1','C104: absolute constant added to the gradient size',[]),
(Z,'gradient_of_variance','amap (fun v => v / mx) w in','w in','C104: variance not normalised',[]),
(Z,'courant','then v * dt / (d * cr) else s','then v * dt / d else s','C09: Courant limit dropped from the size',[]),
(Z,'clamp','then hmax else v) (','then 1 else v) (','C104: absolute upper bound',[]),
(Z,'pad1','ext + (f 0%nat - ext) * (INR i / INR b)','1 + (f 0%nat - ext) * (INR i / INR b)','C104: ramp with an absolute offset',[]),
(Z,'pad_it','pad1 st ext p1 (n1 a) p1 (fun','pad1 st ext p1 (n1 a) 0 (fun','C105: no layer after the last column',[]),
(Z,'pad_it','(p0 + n0 a) (p1 + n1 a + p1)','(p0 + n0 a) (p1 + n1 a)','C105: array too short by the right-hand layer',[]),
(Z,'padded_bbox','bget b 0 - pad; bget b 1; bget b 2 - pad; bget b 3 + pad]','bget b 0 - pad; bget b 1; bget b 2 - pad; bget b 3]','C14: box grown on the left only',[]),
(U,'mean_line','Z.of_nat i - Z.of_nat (w / 2) + Z.of_nat j','Z.of_nat i + Z.of_nat j','C105: one-sided window',[]),
(U,'mean_line','Z.of_nat (w / 2)','Z.of_nat ((w + 1) / 2)','C105: window shifted by one for odd sizes',[]),
(U,'reflect','(2 * n - 1 - m)','(2 * n - 2 - m)','C105: mirror without the edge sample',[]),
(Z,'water_trigger','negb (Nat.eqb i 0)','negb (Nat.eqb i 0) && negb (Nat.eqb j 0)','C105: first column ignored by the water test',[]),
]
