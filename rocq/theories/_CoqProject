theories/HeapModel.v
theories/ValFacts.v
theories/HeapProof.v
theories/HeapProof2.v
theories/HeapProps.v
