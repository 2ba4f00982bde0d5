<minimc>
<general>
  <particles>neutron</particles>
  <histories>1</histories>
  <threads>1</threads>
  <chunksize>1</chunksize>
  <seed>5</seed>
</general>
<nuclides>
  <multigroup groups="1">
    <nuclide name="black">
      <neutron>
        <capture>1</capture>
      </neutron>
    </nuclide>
    <nuclide name="white">
      <neutron>
        <scatter>1</scatter>
      </neutron>
    </nuclide>
  </multigroup>
</nuclides>
<materials>
  <material name="grey" aden="1">
    <nuclide name="black" afrac="1"/>
    <nuclide name="white" afrac="1"/>
  </material>
</materials>
<surfaces>
  <planex name="left" x="0"/>
  <planex name="right" x="20"/>
</surfaces>
<cells>
  <cell name="slab" material="grey">
    <surface name="left" sense="+1"/>
    <surface name="right" sense="-1"/>
  </cell>
  <void>
    <surface name="left" sense="-1"/>
  </void>
  <void>
    <surface name="right" sense="+1"/>
  </void>
</cells>
<problemtype>
  <fixedsource>
    <position>
      <constant x="0.25" y="0" z="0"/>
    </position>
    <direction>
      <constant x="1" y="0" z="0"/>
    </direction>
    <energy>
      <constant energy="1"/>
    </energy>
    <particletype>
      <constant type="neutron"/>
    </particletype>
  </fixedsource>
</problemtype>
<estimators>
  <current name="leakage" surface="left"/>
</estimators>
</minimc>
