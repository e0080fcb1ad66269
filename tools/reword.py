import json,sys
# id -> (title|None, statement|None, quantifier|None); extra: new properties appended
REWORD={}
NEW=[]
exec(open('/verif/tools/reword_data.py').read())
P=[json.loads(l) for l in open('/verif/properties.jsonl')]
ids=[p['id'] for p in P]
for n in NEW:
    if n['id'] in ids: P[ids.index(n['id'])]=n
    else: P.append(n); ids.append(n['id'])
for p in P:
    if p['id'] in REWORD:
        t,s,q=REWORD[p['id']]
        if t: p['title']=t
        if s: p['statement']=s
        if q: p['quantifier']=q
A={"C09":["cafes/particle/geometry/super_ellipsoid.hpp: contains, implicit, bounding_box"],
 "C55":["cafes/fem/operator.hpp: laplacian_mult, strain_tensor_mult","cafes/fem/matrixFree.hpp: diag_block_matrix","cafes/fem/bc.hpp: SetDirichletOnVec"],
 "C66":["cafes/problem/stokes.hpp: stokes","cafes/fem/operator.hpp: B_and_BT_mult, strain_tensor_mult, laplacian_mult","cafes/fem/matrixFree.hpp: stokes_matrix","cafes/fem/bc.hpp: SetDirichletOnVec"],
 "C69":["cafes/problem/stokes.hpp: setup_RHS, stokes","cafes/fem/operator.hpp: laplacian_mult, strain_tensor_mult, B_and_BT_mult, mass_mult","cafes/fem/rhs.hpp: set_rhs","cafes/fem/bc.hpp: SetDirichletOnRHS"],
 "C71":["cafes/problem/stokes.hpp: stokes, setPMMSolver","cafes/fem/matrixFree.hpp: diag_block_matrix, diag_diag_block_matrix","cafes/fem/operator.hpp: laplacian_mult, strain_tensor_mult, mass_mult, diag_laplacian_mult, diag_mass_mult","cafes/fem/matElem.hpp"]}
for p in P:
    if p['id'] in A: p['anchors']=A[p['id']]
    p['anchors']=[a.replace('radial, implicit_function','radial, implicit') for a in p['anchors']]
open('/verif/properties.jsonl','w').write(''.join(json.dumps(p)+'\n' for p in P))
