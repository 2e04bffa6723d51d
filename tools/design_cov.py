OVER={}
def inn(f,mod,*names):
    for n in names: OVER[(f,n)]=('in',mod)
def out(f,why,*names):
    for n in names: OVER[(f,n)]=('out',why)
for f in ('scattering_factors_Hybrid.py','scattering_factors_LVD_TCB.py','scattering_factors_WK.py'): inn(f,'SfModel','*')
inn('mutual_information.py','MiModel','*')
out('scattering_compare.py','plotting script','*')
out('ebsd_mc.py','OpenCL context, buffers and kernel launches; the kernel text is modelled','MonteCarloSimulator.__init__')
out('unit_cell.py','text output, device or dtype change, or returns a stored field that is modelled','Cell.__str__','Cell.to','Cell.set_fp_dtype','Cell.get_density','Cell.get_average_atomic_number','Cell.get_average_atomic_weight','Cell.get_volume','Cell.get_direct_metric_tensor','Cell.get_reciprocal_metric_tensor','Cell.get_direct_structure_matrix','Cell.get_reciprocal_structure_matrix')
inn('sht.py','ShtModel (weights and grids stored by the constructor)','CSHT.__init__','RSHT.__init__')
inn('wigner_d_xnum.py','WigModel (same expression)','index_from_coords')
inn('fitting.py','GeomModel (same formulas)','bruker_geometry_from_SE3')
inn('monte_carlo.py','SphereModel (copy of sphere.py)','rosca_lambert')
out('resampling.py','stores its arguments; text output','GaussianBlur2d.__init__','GaussianBlur2d.__repr__')

inn('knn.py','KnnModel (the quantised product is an arbitrary function)','LinearLayer.__init__','LinearLayer.forward','quant_model_data','quant_model_query')
out('knn.py','not called by the library','topk_quantized_query')
inn('fitting.py','GeomModel (same formulas)','bruker_geometries_to_SE3')
