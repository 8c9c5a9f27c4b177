{"setRootDirectory ignored": ["C76_root_stored (new)"], "removeFile deletes non-empty directories": ["C49_removeFile_directory (new)"], "sign of the predictor": ["C91_boundary_heun_partial (new)"], "one-argument constructor passes nz = 0": ["C07_short_constructors (new)"], "copy of phi in the wrong direction": ["C121_iteration_partial (new)"]}